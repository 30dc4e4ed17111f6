(** The contents of configure/UnicodeData.txt:1-34931 that CMakeLists.txt:42-64 turns into the
    cases of four switch statements.  Neighbouring code points with the same category are
    put together: R lo hi g stands for the lines lo, lo + 1, ..., hi of the file with the third
    field g.  A pair of lines <..., First> and <..., Last> is two lines here as it is for
    sed.  Written by a script from the file: this transcription is trusted. *)
From Coq Require Import ZArith List.
Import ListNotations.
Open Scope Z_scope.

(** The categories, character.hpp:40-72 *)
Inductive category :=
| Cc | Cf | Cn | Co | Cs | Ll | Lm | Lo | Lt | Lu | Mc | Me | Mn | Nd | Nl | No | Pc | Pd | Pe | Pf | Pi | Po | Ps | Sc | Sk | Sm | So
| Zl | Zp | Zs.
(** Cases lo ... hi of a switch with the value v *)
Record entry (A : Type) := Entry { low : Z; high : Z; val : A }.
Arguments Entry {A} low high val.
Arguments low {A}. Arguments high {A}. Arguments val {A}.
Definition R (lo hi : Z) (g : category) : entry category := Entry lo hi g.
Definition P (c v : Z) : entry Z := Entry c c v.

Definition property_cases_0 : list (entry category) := [
  R 0x0 0x1F Cc; R 0x20 0x20 Zs; R 0x21 0x23 Po; R 0x24 0x24 Sc; R 0x25 0x27 Po; R 0x28 0x28 Ps; R 0x29 0x29 Pe;
  R 0x2A 0x2A Po; R 0x2B 0x2B Sm; R 0x2C 0x2C Po; R 0x2D 0x2D Pd; R 0x2E 0x2F Po; R 0x30 0x39 Nd; R 0x3A 0x3B Po;
  R 0x3C 0x3E Sm; R 0x3F 0x40 Po; R 0x41 0x5A Lu; R 0x5B 0x5B Ps; R 0x5C 0x5C Po; R 0x5D 0x5D Pe; R 0x5E 0x5E Sk;
  R 0x5F 0x5F Pc; R 0x60 0x60 Sk; R 0x61 0x7A Ll; R 0x7B 0x7B Ps; R 0x7C 0x7C Sm; R 0x7D 0x7D Pe; R 0x7E 0x7E Sm;
  R 0x7F 0x9F Cc; R 0xA0 0xA0 Zs; R 0xA1 0xA1 Po; R 0xA2 0xA5 Sc; R 0xA6 0xA6 So; R 0xA7 0xA7 Po; R 0xA8 0xA8 Sk;
  R 0xA9 0xA9 So; R 0xAA 0xAA Lo; R 0xAB 0xAB Pi; R 0xAC 0xAC Sm; R 0xAD 0xAD Cf; R 0xAE 0xAE So; R 0xAF 0xAF Sk;
  R 0xB0 0xB0 So; R 0xB1 0xB1 Sm; R 0xB2 0xB3 No; R 0xB4 0xB4 Sk; R 0xB5 0xB5 Ll; R 0xB6 0xB7 Po; R 0xB8 0xB8 Sk;
  R 0xB9 0xB9 No; R 0xBA 0xBA Lo; R 0xBB 0xBB Pf; R 0xBC 0xBE No; R 0xBF 0xBF Po; R 0xC0 0xD6 Lu; R 0xD7 0xD7 Sm;
  R 0xD8 0xDE Lu; R 0xDF 0xF6 Ll; R 0xF7 0xF7 Sm; R 0xF8 0xFF Ll; R 0x100 0x100 Lu; R 0x101 0x101 Ll;
  R 0x102 0x102 Lu; R 0x103 0x103 Ll; R 0x104 0x104 Lu; R 0x105 0x105 Ll; R 0x106 0x106 Lu; R 0x107 0x107 Ll;
  R 0x108 0x108 Lu; R 0x109 0x109 Ll; R 0x10A 0x10A Lu; R 0x10B 0x10B Ll; R 0x10C 0x10C Lu; R 0x10D 0x10D Ll;
  R 0x10E 0x10E Lu; R 0x10F 0x10F Ll; R 0x110 0x110 Lu; R 0x111 0x111 Ll; R 0x112 0x112 Lu; R 0x113 0x113 Ll;
  R 0x114 0x114 Lu; R 0x115 0x115 Ll; R 0x116 0x116 Lu; R 0x117 0x117 Ll; R 0x118 0x118 Lu; R 0x119 0x119 Ll;
  R 0x11A 0x11A Lu; R 0x11B 0x11B Ll; R 0x11C 0x11C Lu; R 0x11D 0x11D Ll; R 0x11E 0x11E Lu; R 0x11F 0x11F Ll;
  R 0x120 0x120 Lu; R 0x121 0x121 Ll; R 0x122 0x122 Lu; R 0x123 0x123 Ll; R 0x124 0x124 Lu; R 0x125 0x125 Ll;
  R 0x126 0x126 Lu; R 0x127 0x127 Ll; R 0x128 0x128 Lu; R 0x129 0x129 Ll; R 0x12A 0x12A Lu; R 0x12B 0x12B Ll;
  R 0x12C 0x12C Lu; R 0x12D 0x12D Ll; R 0x12E 0x12E Lu; R 0x12F 0x12F Ll; R 0x130 0x130 Lu; R 0x131 0x131 Ll;
  R 0x132 0x132 Lu; R 0x133 0x133 Ll; R 0x134 0x134 Lu; R 0x135 0x135 Ll; R 0x136 0x136 Lu; R 0x137 0x138 Ll;
  R 0x139 0x139 Lu; R 0x13A 0x13A Ll; R 0x13B 0x13B Lu; R 0x13C 0x13C Ll; R 0x13D 0x13D Lu; R 0x13E 0x13E Ll;
  R 0x13F 0x13F Lu; R 0x140 0x140 Ll; R 0x141 0x141 Lu; R 0x142 0x142 Ll; R 0x143 0x143 Lu; R 0x144 0x144 Ll;
  R 0x145 0x145 Lu; R 0x146 0x146 Ll; R 0x147 0x147 Lu; R 0x148 0x149 Ll; R 0x14A 0x14A Lu; R 0x14B 0x14B Ll;
  R 0x14C 0x14C Lu; R 0x14D 0x14D Ll; R 0x14E 0x14E Lu; R 0x14F 0x14F Ll; R 0x150 0x150 Lu; R 0x151 0x151 Ll;
  R 0x152 0x152 Lu; R 0x153 0x153 Ll; R 0x154 0x154 Lu; R 0x155 0x155 Ll; R 0x156 0x156 Lu; R 0x157 0x157 Ll;
  R 0x158 0x158 Lu; R 0x159 0x159 Ll; R 0x15A 0x15A Lu; R 0x15B 0x15B Ll; R 0x15C 0x15C Lu; R 0x15D 0x15D Ll;
  R 0x15E 0x15E Lu; R 0x15F 0x15F Ll; R 0x160 0x160 Lu; R 0x161 0x161 Ll; R 0x162 0x162 Lu; R 0x163 0x163 Ll;
  R 0x164 0x164 Lu; R 0x165 0x165 Ll; R 0x166 0x166 Lu; R 0x167 0x167 Ll; R 0x168 0x168 Lu; R 0x169 0x169 Ll;
  R 0x16A 0x16A Lu; R 0x16B 0x16B Ll; R 0x16C 0x16C Lu; R 0x16D 0x16D Ll; R 0x16E 0x16E Lu; R 0x16F 0x16F Ll;
  R 0x170 0x170 Lu; R 0x171 0x171 Ll; R 0x172 0x172 Lu; R 0x173 0x173 Ll; R 0x174 0x174 Lu; R 0x175 0x175 Ll;
  R 0x176 0x176 Lu; R 0x177 0x177 Ll; R 0x178 0x179 Lu; R 0x17A 0x17A Ll; R 0x17B 0x17B Lu; R 0x17C 0x17C Ll;
  R 0x17D 0x17D Lu; R 0x17E 0x180 Ll; R 0x181 0x182 Lu; R 0x183 0x183 Ll; R 0x184 0x184 Lu; R 0x185 0x185 Ll;
  R 0x186 0x187 Lu; R 0x188 0x188 Ll; R 0x189 0x18B Lu; R 0x18C 0x18D Ll; R 0x18E 0x191 Lu; R 0x192 0x192 Ll;
  R 0x193 0x194 Lu; R 0x195 0x195 Ll; R 0x196 0x198 Lu; R 0x199 0x19B Ll; R 0x19C 0x19D Lu; R 0x19E 0x19E Ll;
  R 0x19F 0x1A0 Lu; R 0x1A1 0x1A1 Ll; R 0x1A2 0x1A2 Lu; R 0x1A3 0x1A3 Ll; R 0x1A4 0x1A4 Lu; R 0x1A5 0x1A5 Ll;
  R 0x1A6 0x1A7 Lu; R 0x1A8 0x1A8 Ll; R 0x1A9 0x1A9 Lu; R 0x1AA 0x1AB Ll; R 0x1AC 0x1AC Lu; R 0x1AD 0x1AD Ll;
  R 0x1AE 0x1AF Lu; R 0x1B0 0x1B0 Ll; R 0x1B1 0x1B3 Lu; R 0x1B4 0x1B4 Ll; R 0x1B5 0x1B5 Lu; R 0x1B6 0x1B6 Ll;
  R 0x1B7 0x1B8 Lu; R 0x1B9 0x1BA Ll; R 0x1BB 0x1BB Lo; R 0x1BC 0x1BC Lu; R 0x1BD 0x1BF Ll; R 0x1C0 0x1C3 Lo;
  R 0x1C4 0x1C4 Lu; R 0x1C5 0x1C5 Lt; R 0x1C6 0x1C6 Ll; R 0x1C7 0x1C7 Lu; R 0x1C8 0x1C8 Lt; R 0x1C9 0x1C9 Ll;
  R 0x1CA 0x1CA Lu; R 0x1CB 0x1CB Lt; R 0x1CC 0x1CC Ll; R 0x1CD 0x1CD Lu; R 0x1CE 0x1CE Ll; R 0x1CF 0x1CF Lu;
  R 0x1D0 0x1D0 Ll; R 0x1D1 0x1D1 Lu; R 0x1D2 0x1D2 Ll; R 0x1D3 0x1D3 Lu; R 0x1D4 0x1D4 Ll; R 0x1D5 0x1D5 Lu;
  R 0x1D6 0x1D6 Ll; R 0x1D7 0x1D7 Lu; R 0x1D8 0x1D8 Ll; R 0x1D9 0x1D9 Lu; R 0x1DA 0x1DA Ll; R 0x1DB 0x1DB Lu;
  R 0x1DC 0x1DD Ll; R 0x1DE 0x1DE Lu; R 0x1DF 0x1DF Ll; R 0x1E0 0x1E0 Lu; R 0x1E1 0x1E1 Ll; R 0x1E2 0x1E2 Lu;
  R 0x1E3 0x1E3 Ll; R 0x1E4 0x1E4 Lu; R 0x1E5 0x1E5 Ll; R 0x1E6 0x1E6 Lu; R 0x1E7 0x1E7 Ll; R 0x1E8 0x1E8 Lu;
  R 0x1E9 0x1E9 Ll; R 0x1EA 0x1EA Lu; R 0x1EB 0x1EB Ll; R 0x1EC 0x1EC Lu; R 0x1ED 0x1ED Ll; R 0x1EE 0x1EE Lu;
  R 0x1EF 0x1F0 Ll; R 0x1F1 0x1F1 Lu; R 0x1F2 0x1F2 Lt; R 0x1F3 0x1F3 Ll; R 0x1F4 0x1F4 Lu; R 0x1F5 0x1F5 Ll;
  R 0x1F6 0x1F8 Lu; R 0x1F9 0x1F9 Ll; R 0x1FA 0x1FA Lu; R 0x1FB 0x1FB Ll; R 0x1FC 0x1FC Lu; R 0x1FD 0x1FD Ll;
  R 0x1FE 0x1FE Lu; R 0x1FF 0x1FF Ll; R 0x200 0x200 Lu; R 0x201 0x201 Ll; R 0x202 0x202 Lu; R 0x203 0x203 Ll;
  R 0x204 0x204 Lu; R 0x205 0x205 Ll; R 0x206 0x206 Lu; R 0x207 0x207 Ll; R 0x208 0x208 Lu; R 0x209 0x209 Ll;
  R 0x20A 0x20A Lu; R 0x20B 0x20B Ll; R 0x20C 0x20C Lu; R 0x20D 0x20D Ll; R 0x20E 0x20E Lu; R 0x20F 0x20F Ll;
  R 0x210 0x210 Lu; R 0x211 0x211 Ll; R 0x212 0x212 Lu; R 0x213 0x213 Ll; R 0x214 0x214 Lu; R 0x215 0x215 Ll;
  R 0x216 0x216 Lu; R 0x217 0x217 Ll; R 0x218 0x218 Lu; R 0x219 0x219 Ll; R 0x21A 0x21A Lu; R 0x21B 0x21B Ll;
  R 0x21C 0x21C Lu; R 0x21D 0x21D Ll; R 0x21E 0x21E Lu; R 0x21F 0x21F Ll; R 0x220 0x220 Lu; R 0x221 0x221 Ll;
  R 0x222 0x222 Lu; R 0x223 0x223 Ll; R 0x224 0x224 Lu; R 0x225 0x225 Ll; R 0x226 0x226 Lu; R 0x227 0x227 Ll;
  R 0x228 0x228 Lu; R 0x229 0x229 Ll; R 0x22A 0x22A Lu; R 0x22B 0x22B Ll; R 0x22C 0x22C Lu; R 0x22D 0x22D Ll;
  R 0x22E 0x22E Lu; R 0x22F 0x22F Ll; R 0x230 0x230 Lu; R 0x231 0x231 Ll; R 0x232 0x232 Lu; R 0x233 0x239 Ll;
  R 0x23A 0x23B Lu; R 0x23C 0x23C Ll; R 0x23D 0x23E Lu; R 0x23F 0x240 Ll; R 0x241 0x241 Lu; R 0x242 0x242 Ll;
  R 0x243 0x246 Lu; R 0x247 0x247 Ll; R 0x248 0x248 Lu; R 0x249 0x249 Ll; R 0x24A 0x24A Lu; R 0x24B 0x24B Ll;
  R 0x24C 0x24C Lu; R 0x24D 0x24D Ll; R 0x24E 0x24E Lu; R 0x24F 0x293 Ll; R 0x294 0x294 Lo; R 0x295 0x2AF Ll;
  R 0x2B0 0x2C1 Lm; R 0x2C2 0x2C5 Sk; R 0x2C6 0x2D1 Lm; R 0x2D2 0x2DF Sk; R 0x2E0 0x2E4 Lm; R 0x2E5 0x2EB Sk;
  R 0x2EC 0x2EC Lm; R 0x2ED 0x2ED Sk; R 0x2EE 0x2EE Lm; R 0x2EF 0x2FF Sk; R 0x300 0x36F Mn; R 0x370 0x370 Lu;
  R 0x371 0x371 Ll; R 0x372 0x372 Lu; R 0x373 0x373 Ll; R 0x374 0x374 Lm; R 0x375 0x375 Sk; R 0x376 0x376 Lu;
  R 0x377 0x377 Ll; R 0x37A 0x37A Lm; R 0x37B 0x37D Ll; R 0x37E 0x37E Po; R 0x37F 0x37F Lu; R 0x384 0x385 Sk;
  R 0x386 0x386 Lu; R 0x387 0x387 Po; R 0x388 0x38A Lu; R 0x38C 0x38C Lu; R 0x38E 0x38F Lu; R 0x390 0x390 Ll;
  R 0x391 0x3A1 Lu; R 0x3A3 0x3AB Lu; R 0x3AC 0x3CE Ll; R 0x3CF 0x3CF Lu; R 0x3D0 0x3D1 Ll; R 0x3D2 0x3D4 Lu;
  R 0x3D5 0x3D7 Ll; R 0x3D8 0x3D8 Lu; R 0x3D9 0x3D9 Ll; R 0x3DA 0x3DA Lu; R 0x3DB 0x3DB Ll; R 0x3DC 0x3DC Lu;
  R 0x3DD 0x3DD Ll; R 0x3DE 0x3DE Lu; R 0x3DF 0x3DF Ll; R 0x3E0 0x3E0 Lu; R 0x3E1 0x3E1 Ll; R 0x3E2 0x3E2 Lu;
  R 0x3E3 0x3E3 Ll; R 0x3E4 0x3E4 Lu].
Definition property_cases_1 : list (entry category) := [
  R 0x3E5 0x3E5 Ll; R 0x3E6 0x3E6 Lu; R 0x3E7 0x3E7 Ll; R 0x3E8 0x3E8 Lu; R 0x3E9 0x3E9 Ll; R 0x3EA 0x3EA Lu;
  R 0x3EB 0x3EB Ll; R 0x3EC 0x3EC Lu; R 0x3ED 0x3ED Ll; R 0x3EE 0x3EE Lu; R 0x3EF 0x3F3 Ll; R 0x3F4 0x3F4 Lu;
  R 0x3F5 0x3F5 Ll; R 0x3F6 0x3F6 Sm; R 0x3F7 0x3F7 Lu; R 0x3F8 0x3F8 Ll; R 0x3F9 0x3FA Lu; R 0x3FB 0x3FC Ll;
  R 0x3FD 0x42F Lu; R 0x430 0x45F Ll; R 0x460 0x460 Lu; R 0x461 0x461 Ll; R 0x462 0x462 Lu; R 0x463 0x463 Ll;
  R 0x464 0x464 Lu; R 0x465 0x465 Ll; R 0x466 0x466 Lu; R 0x467 0x467 Ll; R 0x468 0x468 Lu; R 0x469 0x469 Ll;
  R 0x46A 0x46A Lu; R 0x46B 0x46B Ll; R 0x46C 0x46C Lu; R 0x46D 0x46D Ll; R 0x46E 0x46E Lu; R 0x46F 0x46F Ll;
  R 0x470 0x470 Lu; R 0x471 0x471 Ll; R 0x472 0x472 Lu; R 0x473 0x473 Ll; R 0x474 0x474 Lu; R 0x475 0x475 Ll;
  R 0x476 0x476 Lu; R 0x477 0x477 Ll; R 0x478 0x478 Lu; R 0x479 0x479 Ll; R 0x47A 0x47A Lu; R 0x47B 0x47B Ll;
  R 0x47C 0x47C Lu; R 0x47D 0x47D Ll; R 0x47E 0x47E Lu; R 0x47F 0x47F Ll; R 0x480 0x480 Lu; R 0x481 0x481 Ll;
  R 0x482 0x482 So; R 0x483 0x487 Mn; R 0x488 0x489 Me; R 0x48A 0x48A Lu; R 0x48B 0x48B Ll; R 0x48C 0x48C Lu;
  R 0x48D 0x48D Ll; R 0x48E 0x48E Lu; R 0x48F 0x48F Ll; R 0x490 0x490 Lu; R 0x491 0x491 Ll; R 0x492 0x492 Lu;
  R 0x493 0x493 Ll; R 0x494 0x494 Lu; R 0x495 0x495 Ll; R 0x496 0x496 Lu; R 0x497 0x497 Ll; R 0x498 0x498 Lu;
  R 0x499 0x499 Ll; R 0x49A 0x49A Lu; R 0x49B 0x49B Ll; R 0x49C 0x49C Lu; R 0x49D 0x49D Ll; R 0x49E 0x49E Lu;
  R 0x49F 0x49F Ll; R 0x4A0 0x4A0 Lu; R 0x4A1 0x4A1 Ll; R 0x4A2 0x4A2 Lu; R 0x4A3 0x4A3 Ll; R 0x4A4 0x4A4 Lu;
  R 0x4A5 0x4A5 Ll; R 0x4A6 0x4A6 Lu; R 0x4A7 0x4A7 Ll; R 0x4A8 0x4A8 Lu; R 0x4A9 0x4A9 Ll; R 0x4AA 0x4AA Lu;
  R 0x4AB 0x4AB Ll; R 0x4AC 0x4AC Lu; R 0x4AD 0x4AD Ll; R 0x4AE 0x4AE Lu; R 0x4AF 0x4AF Ll; R 0x4B0 0x4B0 Lu;
  R 0x4B1 0x4B1 Ll; R 0x4B2 0x4B2 Lu; R 0x4B3 0x4B3 Ll; R 0x4B4 0x4B4 Lu; R 0x4B5 0x4B5 Ll; R 0x4B6 0x4B6 Lu;
  R 0x4B7 0x4B7 Ll; R 0x4B8 0x4B8 Lu; R 0x4B9 0x4B9 Ll; R 0x4BA 0x4BA Lu; R 0x4BB 0x4BB Ll; R 0x4BC 0x4BC Lu;
  R 0x4BD 0x4BD Ll; R 0x4BE 0x4BE Lu; R 0x4BF 0x4BF Ll; R 0x4C0 0x4C1 Lu; R 0x4C2 0x4C2 Ll; R 0x4C3 0x4C3 Lu;
  R 0x4C4 0x4C4 Ll; R 0x4C5 0x4C5 Lu; R 0x4C6 0x4C6 Ll; R 0x4C7 0x4C7 Lu; R 0x4C8 0x4C8 Ll; R 0x4C9 0x4C9 Lu;
  R 0x4CA 0x4CA Ll; R 0x4CB 0x4CB Lu; R 0x4CC 0x4CC Ll; R 0x4CD 0x4CD Lu; R 0x4CE 0x4CF Ll; R 0x4D0 0x4D0 Lu;
  R 0x4D1 0x4D1 Ll; R 0x4D2 0x4D2 Lu; R 0x4D3 0x4D3 Ll; R 0x4D4 0x4D4 Lu; R 0x4D5 0x4D5 Ll; R 0x4D6 0x4D6 Lu;
  R 0x4D7 0x4D7 Ll; R 0x4D8 0x4D8 Lu; R 0x4D9 0x4D9 Ll; R 0x4DA 0x4DA Lu; R 0x4DB 0x4DB Ll; R 0x4DC 0x4DC Lu;
  R 0x4DD 0x4DD Ll; R 0x4DE 0x4DE Lu; R 0x4DF 0x4DF Ll; R 0x4E0 0x4E0 Lu; R 0x4E1 0x4E1 Ll; R 0x4E2 0x4E2 Lu;
  R 0x4E3 0x4E3 Ll; R 0x4E4 0x4E4 Lu; R 0x4E5 0x4E5 Ll; R 0x4E6 0x4E6 Lu; R 0x4E7 0x4E7 Ll; R 0x4E8 0x4E8 Lu;
  R 0x4E9 0x4E9 Ll; R 0x4EA 0x4EA Lu; R 0x4EB 0x4EB Ll; R 0x4EC 0x4EC Lu; R 0x4ED 0x4ED Ll; R 0x4EE 0x4EE Lu;
  R 0x4EF 0x4EF Ll; R 0x4F0 0x4F0 Lu; R 0x4F1 0x4F1 Ll; R 0x4F2 0x4F2 Lu; R 0x4F3 0x4F3 Ll; R 0x4F4 0x4F4 Lu;
  R 0x4F5 0x4F5 Ll; R 0x4F6 0x4F6 Lu; R 0x4F7 0x4F7 Ll; R 0x4F8 0x4F8 Lu; R 0x4F9 0x4F9 Ll; R 0x4FA 0x4FA Lu;
  R 0x4FB 0x4FB Ll; R 0x4FC 0x4FC Lu; R 0x4FD 0x4FD Ll; R 0x4FE 0x4FE Lu; R 0x4FF 0x4FF Ll; R 0x500 0x500 Lu;
  R 0x501 0x501 Ll; R 0x502 0x502 Lu; R 0x503 0x503 Ll; R 0x504 0x504 Lu; R 0x505 0x505 Ll; R 0x506 0x506 Lu;
  R 0x507 0x507 Ll; R 0x508 0x508 Lu; R 0x509 0x509 Ll; R 0x50A 0x50A Lu; R 0x50B 0x50B Ll; R 0x50C 0x50C Lu;
  R 0x50D 0x50D Ll; R 0x50E 0x50E Lu; R 0x50F 0x50F Ll; R 0x510 0x510 Lu; R 0x511 0x511 Ll; R 0x512 0x512 Lu;
  R 0x513 0x513 Ll; R 0x514 0x514 Lu; R 0x515 0x515 Ll; R 0x516 0x516 Lu; R 0x517 0x517 Ll; R 0x518 0x518 Lu;
  R 0x519 0x519 Ll; R 0x51A 0x51A Lu; R 0x51B 0x51B Ll; R 0x51C 0x51C Lu; R 0x51D 0x51D Ll; R 0x51E 0x51E Lu;
  R 0x51F 0x51F Ll; R 0x520 0x520 Lu; R 0x521 0x521 Ll; R 0x522 0x522 Lu; R 0x523 0x523 Ll; R 0x524 0x524 Lu;
  R 0x525 0x525 Ll; R 0x526 0x526 Lu; R 0x527 0x527 Ll; R 0x528 0x528 Lu; R 0x529 0x529 Ll; R 0x52A 0x52A Lu;
  R 0x52B 0x52B Ll; R 0x52C 0x52C Lu; R 0x52D 0x52D Ll; R 0x52E 0x52E Lu; R 0x52F 0x52F Ll; R 0x531 0x556 Lu;
  R 0x559 0x559 Lm; R 0x55A 0x55F Po; R 0x560 0x588 Ll; R 0x589 0x589 Po; R 0x58A 0x58A Pd; R 0x58D 0x58E So;
  R 0x58F 0x58F Sc; R 0x591 0x5BD Mn; R 0x5BE 0x5BE Pd; R 0x5BF 0x5BF Mn; R 0x5C0 0x5C0 Po; R 0x5C1 0x5C2 Mn;
  R 0x5C3 0x5C3 Po; R 0x5C4 0x5C5 Mn; R 0x5C6 0x5C6 Po; R 0x5C7 0x5C7 Mn; R 0x5D0 0x5EA Lo; R 0x5EF 0x5F2 Lo;
  R 0x5F3 0x5F4 Po; R 0x600 0x605 Cf; R 0x606 0x608 Sm; R 0x609 0x60A Po; R 0x60B 0x60B Sc; R 0x60C 0x60D Po;
  R 0x60E 0x60F So; R 0x610 0x61A Mn; R 0x61B 0x61B Po; R 0x61C 0x61C Cf; R 0x61D 0x61F Po; R 0x620 0x63F Lo;
  R 0x640 0x640 Lm; R 0x641 0x64A Lo; R 0x64B 0x65F Mn; R 0x660 0x669 Nd; R 0x66A 0x66D Po; R 0x66E 0x66F Lo;
  R 0x670 0x670 Mn; R 0x671 0x6D3 Lo; R 0x6D4 0x6D4 Po; R 0x6D5 0x6D5 Lo; R 0x6D6 0x6DC Mn; R 0x6DD 0x6DD Cf;
  R 0x6DE 0x6DE So; R 0x6DF 0x6E4 Mn; R 0x6E5 0x6E6 Lm; R 0x6E7 0x6E8 Mn; R 0x6E9 0x6E9 So; R 0x6EA 0x6ED Mn;
  R 0x6EE 0x6EF Lo; R 0x6F0 0x6F9 Nd; R 0x6FA 0x6FC Lo; R 0x6FD 0x6FE So; R 0x6FF 0x6FF Lo; R 0x700 0x70D Po;
  R 0x70F 0x70F Cf; R 0x710 0x710 Lo; R 0x711 0x711 Mn; R 0x712 0x72F Lo; R 0x730 0x74A Mn; R 0x74D 0x7A5 Lo;
  R 0x7A6 0x7B0 Mn; R 0x7B1 0x7B1 Lo; R 0x7C0 0x7C9 Nd; R 0x7CA 0x7EA Lo; R 0x7EB 0x7F3 Mn; R 0x7F4 0x7F5 Lm;
  R 0x7F6 0x7F6 So; R 0x7F7 0x7F9 Po; R 0x7FA 0x7FA Lm; R 0x7FD 0x7FD Mn; R 0x7FE 0x7FF Sc; R 0x800 0x815 Lo;
  R 0x816 0x819 Mn; R 0x81A 0x81A Lm; R 0x81B 0x823 Mn; R 0x824 0x824 Lm; R 0x825 0x827 Mn; R 0x828 0x828 Lm;
  R 0x829 0x82D Mn; R 0x830 0x83E Po; R 0x840 0x858 Lo; R 0x859 0x85B Mn; R 0x85E 0x85E Po; R 0x860 0x86A Lo;
  R 0x870 0x887 Lo; R 0x888 0x888 Sk; R 0x889 0x88E Lo; R 0x890 0x891 Cf; R 0x898 0x89F Mn; R 0x8A0 0x8C8 Lo;
  R 0x8C9 0x8C9 Lm; R 0x8CA 0x8E1 Mn; R 0x8E2 0x8E2 Cf; R 0x8E3 0x902 Mn; R 0x903 0x903 Mc; R 0x904 0x939 Lo;
  R 0x93A 0x93A Mn; R 0x93B 0x93B Mc; R 0x93C 0x93C Mn; R 0x93D 0x93D Lo; R 0x93E 0x940 Mc; R 0x941 0x948 Mn;
  R 0x949 0x94C Mc; R 0x94D 0x94D Mn; R 0x94E 0x94F Mc; R 0x950 0x950 Lo; R 0x951 0x957 Mn; R 0x958 0x961 Lo;
  R 0x962 0x963 Mn; R 0x964 0x965 Po; R 0x966 0x96F Nd; R 0x970 0x970 Po; R 0x971 0x971 Lm; R 0x972 0x980 Lo;
  R 0x981 0x981 Mn; R 0x982 0x983 Mc; R 0x985 0x98C Lo; R 0x98F 0x990 Lo; R 0x993 0x9A8 Lo; R 0x9AA 0x9B0 Lo;
  R 0x9B2 0x9B2 Lo; R 0x9B6 0x9B9 Lo; R 0x9BC 0x9BC Mn; R 0x9BD 0x9BD Lo; R 0x9BE 0x9C0 Mc; R 0x9C1 0x9C4 Mn;
  R 0x9C7 0x9C8 Mc; R 0x9CB 0x9CC Mc; R 0x9CD 0x9CD Mn; R 0x9CE 0x9CE Lo; R 0x9D7 0x9D7 Mc; R 0x9DC 0x9DD Lo;
  R 0x9DF 0x9E1 Lo; R 0x9E2 0x9E3 Mn; R 0x9E6 0x9EF Nd; R 0x9F0 0x9F1 Lo; R 0x9F2 0x9F3 Sc; R 0x9F4 0x9F9 No;
  R 0x9FA 0x9FA So; R 0x9FB 0x9FB Sc; R 0x9FC 0x9FC Lo; R 0x9FD 0x9FD Po; R 0x9FE 0x9FE Mn; R 0xA01 0xA02 Mn;
  R 0xA03 0xA03 Mc; R 0xA05 0xA0A Lo; R 0xA0F 0xA10 Lo; R 0xA13 0xA28 Lo; R 0xA2A 0xA30 Lo; R 0xA32 0xA33 Lo;
  R 0xA35 0xA36 Lo; R 0xA38 0xA39 Lo; R 0xA3C 0xA3C Mn; R 0xA3E 0xA40 Mc; R 0xA41 0xA42 Mn; R 0xA47 0xA48 Mn;
  R 0xA4B 0xA4D Mn; R 0xA51 0xA51 Mn; R 0xA59 0xA5C Lo; R 0xA5E 0xA5E Lo; R 0xA66 0xA6F Nd; R 0xA70 0xA71 Mn;
  R 0xA72 0xA74 Lo; R 0xA75 0xA75 Mn; R 0xA76 0xA76 Po; R 0xA81 0xA82 Mn; R 0xA83 0xA83 Mc; R 0xA85 0xA8D Lo;
  R 0xA8F 0xA91 Lo; R 0xA93 0xAA8 Lo; R 0xAAA 0xAB0 Lo; R 0xAB2 0xAB3 Lo; R 0xAB5 0xAB9 Lo; R 0xABC 0xABC Mn;
  R 0xABD 0xABD Lo; R 0xABE 0xAC0 Mc; R 0xAC1 0xAC5 Mn; R 0xAC7 0xAC8 Mn].
Definition property_cases_2 : list (entry category) := [
  R 0xAC9 0xAC9 Mc; R 0xACB 0xACC Mc; R 0xACD 0xACD Mn; R 0xAD0 0xAD0 Lo; R 0xAE0 0xAE1 Lo; R 0xAE2 0xAE3 Mn;
  R 0xAE6 0xAEF Nd; R 0xAF0 0xAF0 Po; R 0xAF1 0xAF1 Sc; R 0xAF9 0xAF9 Lo; R 0xAFA 0xAFF Mn; R 0xB01 0xB01 Mn;
  R 0xB02 0xB03 Mc; R 0xB05 0xB0C Lo; R 0xB0F 0xB10 Lo; R 0xB13 0xB28 Lo; R 0xB2A 0xB30 Lo; R 0xB32 0xB33 Lo;
  R 0xB35 0xB39 Lo; R 0xB3C 0xB3C Mn; R 0xB3D 0xB3D Lo; R 0xB3E 0xB3E Mc; R 0xB3F 0xB3F Mn; R 0xB40 0xB40 Mc;
  R 0xB41 0xB44 Mn; R 0xB47 0xB48 Mc; R 0xB4B 0xB4C Mc; R 0xB4D 0xB4D Mn; R 0xB55 0xB56 Mn; R 0xB57 0xB57 Mc;
  R 0xB5C 0xB5D Lo; R 0xB5F 0xB61 Lo; R 0xB62 0xB63 Mn; R 0xB66 0xB6F Nd; R 0xB70 0xB70 So; R 0xB71 0xB71 Lo;
  R 0xB72 0xB77 No; R 0xB82 0xB82 Mn; R 0xB83 0xB83 Lo; R 0xB85 0xB8A Lo; R 0xB8E 0xB90 Lo; R 0xB92 0xB95 Lo;
  R 0xB99 0xB9A Lo; R 0xB9C 0xB9C Lo; R 0xB9E 0xB9F Lo; R 0xBA3 0xBA4 Lo; R 0xBA8 0xBAA Lo; R 0xBAE 0xBB9 Lo;
  R 0xBBE 0xBBF Mc; R 0xBC0 0xBC0 Mn; R 0xBC1 0xBC2 Mc; R 0xBC6 0xBC8 Mc; R 0xBCA 0xBCC Mc; R 0xBCD 0xBCD Mn;
  R 0xBD0 0xBD0 Lo; R 0xBD7 0xBD7 Mc; R 0xBE6 0xBEF Nd; R 0xBF0 0xBF2 No; R 0xBF3 0xBF8 So; R 0xBF9 0xBF9 Sc;
  R 0xBFA 0xBFA So; R 0xC00 0xC00 Mn; R 0xC01 0xC03 Mc; R 0xC04 0xC04 Mn; R 0xC05 0xC0C Lo; R 0xC0E 0xC10 Lo;
  R 0xC12 0xC28 Lo; R 0xC2A 0xC39 Lo; R 0xC3C 0xC3C Mn; R 0xC3D 0xC3D Lo; R 0xC3E 0xC40 Mn; R 0xC41 0xC44 Mc;
  R 0xC46 0xC48 Mn; R 0xC4A 0xC4D Mn; R 0xC55 0xC56 Mn; R 0xC58 0xC5A Lo; R 0xC5D 0xC5D Lo; R 0xC60 0xC61 Lo;
  R 0xC62 0xC63 Mn; R 0xC66 0xC6F Nd; R 0xC77 0xC77 Po; R 0xC78 0xC7E No; R 0xC7F 0xC7F So; R 0xC80 0xC80 Lo;
  R 0xC81 0xC81 Mn; R 0xC82 0xC83 Mc; R 0xC84 0xC84 Po; R 0xC85 0xC8C Lo; R 0xC8E 0xC90 Lo; R 0xC92 0xCA8 Lo;
  R 0xCAA 0xCB3 Lo; R 0xCB5 0xCB9 Lo; R 0xCBC 0xCBC Mn; R 0xCBD 0xCBD Lo; R 0xCBE 0xCBE Mc; R 0xCBF 0xCBF Mn;
  R 0xCC0 0xCC4 Mc; R 0xCC6 0xCC6 Mn; R 0xCC7 0xCC8 Mc; R 0xCCA 0xCCB Mc; R 0xCCC 0xCCD Mn; R 0xCD5 0xCD6 Mc;
  R 0xCDD 0xCDE Lo; R 0xCE0 0xCE1 Lo; R 0xCE2 0xCE3 Mn; R 0xCE6 0xCEF Nd; R 0xCF1 0xCF2 Lo; R 0xCF3 0xCF3 Mc;
  R 0xD00 0xD01 Mn; R 0xD02 0xD03 Mc; R 0xD04 0xD0C Lo; R 0xD0E 0xD10 Lo; R 0xD12 0xD3A Lo; R 0xD3B 0xD3C Mn;
  R 0xD3D 0xD3D Lo; R 0xD3E 0xD40 Mc; R 0xD41 0xD44 Mn; R 0xD46 0xD48 Mc; R 0xD4A 0xD4C Mc; R 0xD4D 0xD4D Mn;
  R 0xD4E 0xD4E Lo; R 0xD4F 0xD4F So; R 0xD54 0xD56 Lo; R 0xD57 0xD57 Mc; R 0xD58 0xD5E No; R 0xD5F 0xD61 Lo;
  R 0xD62 0xD63 Mn; R 0xD66 0xD6F Nd; R 0xD70 0xD78 No; R 0xD79 0xD79 So; R 0xD7A 0xD7F Lo; R 0xD81 0xD81 Mn;
  R 0xD82 0xD83 Mc; R 0xD85 0xD96 Lo; R 0xD9A 0xDB1 Lo; R 0xDB3 0xDBB Lo; R 0xDBD 0xDBD Lo; R 0xDC0 0xDC6 Lo;
  R 0xDCA 0xDCA Mn; R 0xDCF 0xDD1 Mc; R 0xDD2 0xDD4 Mn; R 0xDD6 0xDD6 Mn; R 0xDD8 0xDDF Mc; R 0xDE6 0xDEF Nd;
  R 0xDF2 0xDF3 Mc; R 0xDF4 0xDF4 Po; R 0xE01 0xE30 Lo; R 0xE31 0xE31 Mn; R 0xE32 0xE33 Lo; R 0xE34 0xE3A Mn;
  R 0xE3F 0xE3F Sc; R 0xE40 0xE45 Lo; R 0xE46 0xE46 Lm; R 0xE47 0xE4E Mn; R 0xE4F 0xE4F Po; R 0xE50 0xE59 Nd;
  R 0xE5A 0xE5B Po; R 0xE81 0xE82 Lo; R 0xE84 0xE84 Lo; R 0xE86 0xE8A Lo; R 0xE8C 0xEA3 Lo; R 0xEA5 0xEA5 Lo;
  R 0xEA7 0xEB0 Lo; R 0xEB1 0xEB1 Mn; R 0xEB2 0xEB3 Lo; R 0xEB4 0xEBC Mn; R 0xEBD 0xEBD Lo; R 0xEC0 0xEC4 Lo;
  R 0xEC6 0xEC6 Lm; R 0xEC8 0xECE Mn; R 0xED0 0xED9 Nd; R 0xEDC 0xEDF Lo; R 0xF00 0xF00 Lo; R 0xF01 0xF03 So;
  R 0xF04 0xF12 Po; R 0xF13 0xF13 So; R 0xF14 0xF14 Po; R 0xF15 0xF17 So; R 0xF18 0xF19 Mn; R 0xF1A 0xF1F So;
  R 0xF20 0xF29 Nd; R 0xF2A 0xF33 No; R 0xF34 0xF34 So; R 0xF35 0xF35 Mn; R 0xF36 0xF36 So; R 0xF37 0xF37 Mn;
  R 0xF38 0xF38 So; R 0xF39 0xF39 Mn; R 0xF3A 0xF3A Ps; R 0xF3B 0xF3B Pe; R 0xF3C 0xF3C Ps; R 0xF3D 0xF3D Pe;
  R 0xF3E 0xF3F Mc; R 0xF40 0xF47 Lo; R 0xF49 0xF6C Lo; R 0xF71 0xF7E Mn; R 0xF7F 0xF7F Mc; R 0xF80 0xF84 Mn;
  R 0xF85 0xF85 Po; R 0xF86 0xF87 Mn; R 0xF88 0xF8C Lo; R 0xF8D 0xF97 Mn; R 0xF99 0xFBC Mn; R 0xFBE 0xFC5 So;
  R 0xFC6 0xFC6 Mn; R 0xFC7 0xFCC So; R 0xFCE 0xFCF So; R 0xFD0 0xFD4 Po; R 0xFD5 0xFD8 So; R 0xFD9 0xFDA Po;
  R 0x1000 0x102A Lo; R 0x102B 0x102C Mc; R 0x102D 0x1030 Mn; R 0x1031 0x1031 Mc; R 0x1032 0x1037 Mn;
  R 0x1038 0x1038 Mc; R 0x1039 0x103A Mn; R 0x103B 0x103C Mc; R 0x103D 0x103E Mn; R 0x103F 0x103F Lo;
  R 0x1040 0x1049 Nd; R 0x104A 0x104F Po; R 0x1050 0x1055 Lo; R 0x1056 0x1057 Mc; R 0x1058 0x1059 Mn;
  R 0x105A 0x105D Lo; R 0x105E 0x1060 Mn; R 0x1061 0x1061 Lo; R 0x1062 0x1064 Mc; R 0x1065 0x1066 Lo;
  R 0x1067 0x106D Mc; R 0x106E 0x1070 Lo; R 0x1071 0x1074 Mn; R 0x1075 0x1081 Lo; R 0x1082 0x1082 Mn;
  R 0x1083 0x1084 Mc; R 0x1085 0x1086 Mn; R 0x1087 0x108C Mc; R 0x108D 0x108D Mn; R 0x108E 0x108E Lo;
  R 0x108F 0x108F Mc; R 0x1090 0x1099 Nd; R 0x109A 0x109C Mc; R 0x109D 0x109D Mn; R 0x109E 0x109F So;
  R 0x10A0 0x10C5 Lu; R 0x10C7 0x10C7 Lu; R 0x10CD 0x10CD Lu; R 0x10D0 0x10FA Ll; R 0x10FB 0x10FB Po;
  R 0x10FC 0x10FC Lm; R 0x10FD 0x10FF Ll; R 0x1100 0x1248 Lo; R 0x124A 0x124D Lo; R 0x1250 0x1256 Lo;
  R 0x1258 0x1258 Lo; R 0x125A 0x125D Lo; R 0x1260 0x1288 Lo; R 0x128A 0x128D Lo; R 0x1290 0x12B0 Lo;
  R 0x12B2 0x12B5 Lo; R 0x12B8 0x12BE Lo; R 0x12C0 0x12C0 Lo; R 0x12C2 0x12C5 Lo; R 0x12C8 0x12D6 Lo;
  R 0x12D8 0x1310 Lo; R 0x1312 0x1315 Lo; R 0x1318 0x135A Lo; R 0x135D 0x135F Mn; R 0x1360 0x1368 Po;
  R 0x1369 0x137C No; R 0x1380 0x138F Lo; R 0x1390 0x1399 So; R 0x13A0 0x13F5 Lu; R 0x13F8 0x13FD Ll;
  R 0x1400 0x1400 Pd; R 0x1401 0x166C Lo; R 0x166D 0x166D So; R 0x166E 0x166E Po; R 0x166F 0x167F Lo;
  R 0x1680 0x1680 Zs; R 0x1681 0x169A Lo; R 0x169B 0x169B Ps; R 0x169C 0x169C Pe; R 0x16A0 0x16EA Lo;
  R 0x16EB 0x16ED Po; R 0x16EE 0x16F0 Nl; R 0x16F1 0x16F8 Lo; R 0x1700 0x1711 Lo; R 0x1712 0x1714 Mn;
  R 0x1715 0x1715 Mc; R 0x171F 0x1731 Lo; R 0x1732 0x1733 Mn; R 0x1734 0x1734 Mc; R 0x1735 0x1736 Po;
  R 0x1740 0x1751 Lo; R 0x1752 0x1753 Mn; R 0x1760 0x176C Lo; R 0x176E 0x1770 Lo; R 0x1772 0x1773 Mn;
  R 0x1780 0x17B3 Lo; R 0x17B4 0x17B5 Mn; R 0x17B6 0x17B6 Mc; R 0x17B7 0x17BD Mn; R 0x17BE 0x17C5 Mc;
  R 0x17C6 0x17C6 Mn; R 0x17C7 0x17C8 Mc; R 0x17C9 0x17D3 Mn; R 0x17D4 0x17D6 Po; R 0x17D7 0x17D7 Lm;
  R 0x17D8 0x17DA Po; R 0x17DB 0x17DB Sc; R 0x17DC 0x17DC Lo; R 0x17DD 0x17DD Mn; R 0x17E0 0x17E9 Nd;
  R 0x17F0 0x17F9 No; R 0x1800 0x1805 Po; R 0x1806 0x1806 Pd; R 0x1807 0x180A Po; R 0x180B 0x180D Mn;
  R 0x180E 0x180E Cf; R 0x180F 0x180F Mn; R 0x1810 0x1819 Nd; R 0x1820 0x1842 Lo; R 0x1843 0x1843 Lm;
  R 0x1844 0x1878 Lo; R 0x1880 0x1884 Lo; R 0x1885 0x1886 Mn; R 0x1887 0x18A8 Lo; R 0x18A9 0x18A9 Mn;
  R 0x18AA 0x18AA Lo; R 0x18B0 0x18F5 Lo; R 0x1900 0x191E Lo; R 0x1920 0x1922 Mn; R 0x1923 0x1926 Mc;
  R 0x1927 0x1928 Mn; R 0x1929 0x192B Mc; R 0x1930 0x1931 Mc; R 0x1932 0x1932 Mn; R 0x1933 0x1938 Mc;
  R 0x1939 0x193B Mn; R 0x1940 0x1940 So; R 0x1944 0x1945 Po; R 0x1946 0x194F Nd; R 0x1950 0x196D Lo;
  R 0x1970 0x1974 Lo; R 0x1980 0x19AB Lo; R 0x19B0 0x19C9 Lo; R 0x19D0 0x19D9 Nd; R 0x19DA 0x19DA No;
  R 0x19DE 0x19FF So; R 0x1A00 0x1A16 Lo; R 0x1A17 0x1A18 Mn; R 0x1A19 0x1A1A Mc; R 0x1A1B 0x1A1B Mn;
  R 0x1A1E 0x1A1F Po; R 0x1A20 0x1A54 Lo; R 0x1A55 0x1A55 Mc; R 0x1A56 0x1A56 Mn; R 0x1A57 0x1A57 Mc;
  R 0x1A58 0x1A5E Mn; R 0x1A60 0x1A60 Mn; R 0x1A61 0x1A61 Mc; R 0x1A62 0x1A62 Mn; R 0x1A63 0x1A64 Mc;
  R 0x1A65 0x1A6C Mn; R 0x1A6D 0x1A72 Mc; R 0x1A73 0x1A7C Mn; R 0x1A7F 0x1A7F Mn; R 0x1A80 0x1A89 Nd;
  R 0x1A90 0x1A99 Nd; R 0x1AA0 0x1AA6 Po; R 0x1AA7 0x1AA7 Lm; R 0x1AA8 0x1AAD Po; R 0x1AB0 0x1ABD Mn;
  R 0x1ABE 0x1ABE Me; R 0x1ABF 0x1ACE Mn; R 0x1B00 0x1B03 Mn; R 0x1B04 0x1B04 Mc; R 0x1B05 0x1B33 Lo;
  R 0x1B34 0x1B34 Mn; R 0x1B35 0x1B35 Mc; R 0x1B36 0x1B3A Mn; R 0x1B3B 0x1B3B Mc; R 0x1B3C 0x1B3C Mn;
  R 0x1B3D 0x1B41 Mc; R 0x1B42 0x1B42 Mn; R 0x1B43 0x1B44 Mc; R 0x1B45 0x1B4C Lo; R 0x1B50 0x1B59 Nd;
  R 0x1B5A 0x1B60 Po; R 0x1B61 0x1B6A So; R 0x1B6B 0x1B73 Mn; R 0x1B74 0x1B7C So; R 0x1B7D 0x1B7E Po;
  R 0x1B80 0x1B81 Mn; R 0x1B82 0x1B82 Mc; R 0x1B83 0x1BA0 Lo; R 0x1BA1 0x1BA1 Mc; R 0x1BA2 0x1BA5 Mn].
Definition property_cases_3 : list (entry category) := [
  R 0x1BA6 0x1BA7 Mc; R 0x1BA8 0x1BA9 Mn; R 0x1BAA 0x1BAA Mc; R 0x1BAB 0x1BAD Mn; R 0x1BAE 0x1BAF Lo;
  R 0x1BB0 0x1BB9 Nd; R 0x1BBA 0x1BE5 Lo; R 0x1BE6 0x1BE6 Mn; R 0x1BE7 0x1BE7 Mc; R 0x1BE8 0x1BE9 Mn;
  R 0x1BEA 0x1BEC Mc; R 0x1BED 0x1BED Mn; R 0x1BEE 0x1BEE Mc; R 0x1BEF 0x1BF1 Mn; R 0x1BF2 0x1BF3 Mc;
  R 0x1BFC 0x1BFF Po; R 0x1C00 0x1C23 Lo; R 0x1C24 0x1C2B Mc; R 0x1C2C 0x1C33 Mn; R 0x1C34 0x1C35 Mc;
  R 0x1C36 0x1C37 Mn; R 0x1C3B 0x1C3F Po; R 0x1C40 0x1C49 Nd; R 0x1C4D 0x1C4F Lo; R 0x1C50 0x1C59 Nd;
  R 0x1C5A 0x1C77 Lo; R 0x1C78 0x1C7D Lm; R 0x1C7E 0x1C7F Po; R 0x1C80 0x1C88 Ll; R 0x1C90 0x1CBA Lu;
  R 0x1CBD 0x1CBF Lu; R 0x1CC0 0x1CC7 Po; R 0x1CD0 0x1CD2 Mn; R 0x1CD3 0x1CD3 Po; R 0x1CD4 0x1CE0 Mn;
  R 0x1CE1 0x1CE1 Mc; R 0x1CE2 0x1CE8 Mn; R 0x1CE9 0x1CEC Lo; R 0x1CED 0x1CED Mn; R 0x1CEE 0x1CF3 Lo;
  R 0x1CF4 0x1CF4 Mn; R 0x1CF5 0x1CF6 Lo; R 0x1CF7 0x1CF7 Mc; R 0x1CF8 0x1CF9 Mn; R 0x1CFA 0x1CFA Lo;
  R 0x1D00 0x1D2B Ll; R 0x1D2C 0x1D6A Lm; R 0x1D6B 0x1D77 Ll; R 0x1D78 0x1D78 Lm; R 0x1D79 0x1D9A Ll;
  R 0x1D9B 0x1DBF Lm; R 0x1DC0 0x1DFF Mn; R 0x1E00 0x1E00 Lu; R 0x1E01 0x1E01 Ll; R 0x1E02 0x1E02 Lu;
  R 0x1E03 0x1E03 Ll; R 0x1E04 0x1E04 Lu; R 0x1E05 0x1E05 Ll; R 0x1E06 0x1E06 Lu; R 0x1E07 0x1E07 Ll;
  R 0x1E08 0x1E08 Lu; R 0x1E09 0x1E09 Ll; R 0x1E0A 0x1E0A Lu; R 0x1E0B 0x1E0B Ll; R 0x1E0C 0x1E0C Lu;
  R 0x1E0D 0x1E0D Ll; R 0x1E0E 0x1E0E Lu; R 0x1E0F 0x1E0F Ll; R 0x1E10 0x1E10 Lu; R 0x1E11 0x1E11 Ll;
  R 0x1E12 0x1E12 Lu; R 0x1E13 0x1E13 Ll; R 0x1E14 0x1E14 Lu; R 0x1E15 0x1E15 Ll; R 0x1E16 0x1E16 Lu;
  R 0x1E17 0x1E17 Ll; R 0x1E18 0x1E18 Lu; R 0x1E19 0x1E19 Ll; R 0x1E1A 0x1E1A Lu; R 0x1E1B 0x1E1B Ll;
  R 0x1E1C 0x1E1C Lu; R 0x1E1D 0x1E1D Ll; R 0x1E1E 0x1E1E Lu; R 0x1E1F 0x1E1F Ll; R 0x1E20 0x1E20 Lu;
  R 0x1E21 0x1E21 Ll; R 0x1E22 0x1E22 Lu; R 0x1E23 0x1E23 Ll; R 0x1E24 0x1E24 Lu; R 0x1E25 0x1E25 Ll;
  R 0x1E26 0x1E26 Lu; R 0x1E27 0x1E27 Ll; R 0x1E28 0x1E28 Lu; R 0x1E29 0x1E29 Ll; R 0x1E2A 0x1E2A Lu;
  R 0x1E2B 0x1E2B Ll; R 0x1E2C 0x1E2C Lu; R 0x1E2D 0x1E2D Ll; R 0x1E2E 0x1E2E Lu; R 0x1E2F 0x1E2F Ll;
  R 0x1E30 0x1E30 Lu; R 0x1E31 0x1E31 Ll; R 0x1E32 0x1E32 Lu; R 0x1E33 0x1E33 Ll; R 0x1E34 0x1E34 Lu;
  R 0x1E35 0x1E35 Ll; R 0x1E36 0x1E36 Lu; R 0x1E37 0x1E37 Ll; R 0x1E38 0x1E38 Lu; R 0x1E39 0x1E39 Ll;
  R 0x1E3A 0x1E3A Lu; R 0x1E3B 0x1E3B Ll; R 0x1E3C 0x1E3C Lu; R 0x1E3D 0x1E3D Ll; R 0x1E3E 0x1E3E Lu;
  R 0x1E3F 0x1E3F Ll; R 0x1E40 0x1E40 Lu; R 0x1E41 0x1E41 Ll; R 0x1E42 0x1E42 Lu; R 0x1E43 0x1E43 Ll;
  R 0x1E44 0x1E44 Lu; R 0x1E45 0x1E45 Ll; R 0x1E46 0x1E46 Lu; R 0x1E47 0x1E47 Ll; R 0x1E48 0x1E48 Lu;
  R 0x1E49 0x1E49 Ll; R 0x1E4A 0x1E4A Lu; R 0x1E4B 0x1E4B Ll; R 0x1E4C 0x1E4C Lu; R 0x1E4D 0x1E4D Ll;
  R 0x1E4E 0x1E4E Lu; R 0x1E4F 0x1E4F Ll; R 0x1E50 0x1E50 Lu; R 0x1E51 0x1E51 Ll; R 0x1E52 0x1E52 Lu;
  R 0x1E53 0x1E53 Ll; R 0x1E54 0x1E54 Lu; R 0x1E55 0x1E55 Ll; R 0x1E56 0x1E56 Lu; R 0x1E57 0x1E57 Ll;
  R 0x1E58 0x1E58 Lu; R 0x1E59 0x1E59 Ll; R 0x1E5A 0x1E5A Lu; R 0x1E5B 0x1E5B Ll; R 0x1E5C 0x1E5C Lu;
  R 0x1E5D 0x1E5D Ll; R 0x1E5E 0x1E5E Lu; R 0x1E5F 0x1E5F Ll; R 0x1E60 0x1E60 Lu; R 0x1E61 0x1E61 Ll;
  R 0x1E62 0x1E62 Lu; R 0x1E63 0x1E63 Ll; R 0x1E64 0x1E64 Lu; R 0x1E65 0x1E65 Ll; R 0x1E66 0x1E66 Lu;
  R 0x1E67 0x1E67 Ll; R 0x1E68 0x1E68 Lu; R 0x1E69 0x1E69 Ll; R 0x1E6A 0x1E6A Lu; R 0x1E6B 0x1E6B Ll;
  R 0x1E6C 0x1E6C Lu; R 0x1E6D 0x1E6D Ll; R 0x1E6E 0x1E6E Lu; R 0x1E6F 0x1E6F Ll; R 0x1E70 0x1E70 Lu;
  R 0x1E71 0x1E71 Ll; R 0x1E72 0x1E72 Lu; R 0x1E73 0x1E73 Ll; R 0x1E74 0x1E74 Lu; R 0x1E75 0x1E75 Ll;
  R 0x1E76 0x1E76 Lu; R 0x1E77 0x1E77 Ll; R 0x1E78 0x1E78 Lu; R 0x1E79 0x1E79 Ll; R 0x1E7A 0x1E7A Lu;
  R 0x1E7B 0x1E7B Ll; R 0x1E7C 0x1E7C Lu; R 0x1E7D 0x1E7D Ll; R 0x1E7E 0x1E7E Lu; R 0x1E7F 0x1E7F Ll;
  R 0x1E80 0x1E80 Lu; R 0x1E81 0x1E81 Ll; R 0x1E82 0x1E82 Lu; R 0x1E83 0x1E83 Ll; R 0x1E84 0x1E84 Lu;
  R 0x1E85 0x1E85 Ll; R 0x1E86 0x1E86 Lu; R 0x1E87 0x1E87 Ll; R 0x1E88 0x1E88 Lu; R 0x1E89 0x1E89 Ll;
  R 0x1E8A 0x1E8A Lu; R 0x1E8B 0x1E8B Ll; R 0x1E8C 0x1E8C Lu; R 0x1E8D 0x1E8D Ll; R 0x1E8E 0x1E8E Lu;
  R 0x1E8F 0x1E8F Ll; R 0x1E90 0x1E90 Lu; R 0x1E91 0x1E91 Ll; R 0x1E92 0x1E92 Lu; R 0x1E93 0x1E93 Ll;
  R 0x1E94 0x1E94 Lu; R 0x1E95 0x1E9D Ll; R 0x1E9E 0x1E9E Lu; R 0x1E9F 0x1E9F Ll; R 0x1EA0 0x1EA0 Lu;
  R 0x1EA1 0x1EA1 Ll; R 0x1EA2 0x1EA2 Lu; R 0x1EA3 0x1EA3 Ll; R 0x1EA4 0x1EA4 Lu; R 0x1EA5 0x1EA5 Ll;
  R 0x1EA6 0x1EA6 Lu; R 0x1EA7 0x1EA7 Ll; R 0x1EA8 0x1EA8 Lu; R 0x1EA9 0x1EA9 Ll; R 0x1EAA 0x1EAA Lu;
  R 0x1EAB 0x1EAB Ll; R 0x1EAC 0x1EAC Lu; R 0x1EAD 0x1EAD Ll; R 0x1EAE 0x1EAE Lu; R 0x1EAF 0x1EAF Ll;
  R 0x1EB0 0x1EB0 Lu; R 0x1EB1 0x1EB1 Ll; R 0x1EB2 0x1EB2 Lu; R 0x1EB3 0x1EB3 Ll; R 0x1EB4 0x1EB4 Lu;
  R 0x1EB5 0x1EB5 Ll; R 0x1EB6 0x1EB6 Lu; R 0x1EB7 0x1EB7 Ll; R 0x1EB8 0x1EB8 Lu; R 0x1EB9 0x1EB9 Ll;
  R 0x1EBA 0x1EBA Lu; R 0x1EBB 0x1EBB Ll; R 0x1EBC 0x1EBC Lu; R 0x1EBD 0x1EBD Ll; R 0x1EBE 0x1EBE Lu;
  R 0x1EBF 0x1EBF Ll; R 0x1EC0 0x1EC0 Lu; R 0x1EC1 0x1EC1 Ll; R 0x1EC2 0x1EC2 Lu; R 0x1EC3 0x1EC3 Ll;
  R 0x1EC4 0x1EC4 Lu; R 0x1EC5 0x1EC5 Ll; R 0x1EC6 0x1EC6 Lu; R 0x1EC7 0x1EC7 Ll; R 0x1EC8 0x1EC8 Lu;
  R 0x1EC9 0x1EC9 Ll; R 0x1ECA 0x1ECA Lu; R 0x1ECB 0x1ECB Ll; R 0x1ECC 0x1ECC Lu; R 0x1ECD 0x1ECD Ll;
  R 0x1ECE 0x1ECE Lu; R 0x1ECF 0x1ECF Ll; R 0x1ED0 0x1ED0 Lu; R 0x1ED1 0x1ED1 Ll; R 0x1ED2 0x1ED2 Lu;
  R 0x1ED3 0x1ED3 Ll; R 0x1ED4 0x1ED4 Lu; R 0x1ED5 0x1ED5 Ll; R 0x1ED6 0x1ED6 Lu; R 0x1ED7 0x1ED7 Ll;
  R 0x1ED8 0x1ED8 Lu; R 0x1ED9 0x1ED9 Ll; R 0x1EDA 0x1EDA Lu; R 0x1EDB 0x1EDB Ll; R 0x1EDC 0x1EDC Lu;
  R 0x1EDD 0x1EDD Ll; R 0x1EDE 0x1EDE Lu; R 0x1EDF 0x1EDF Ll; R 0x1EE0 0x1EE0 Lu; R 0x1EE1 0x1EE1 Ll;
  R 0x1EE2 0x1EE2 Lu; R 0x1EE3 0x1EE3 Ll; R 0x1EE4 0x1EE4 Lu; R 0x1EE5 0x1EE5 Ll; R 0x1EE6 0x1EE6 Lu;
  R 0x1EE7 0x1EE7 Ll; R 0x1EE8 0x1EE8 Lu; R 0x1EE9 0x1EE9 Ll; R 0x1EEA 0x1EEA Lu; R 0x1EEB 0x1EEB Ll;
  R 0x1EEC 0x1EEC Lu; R 0x1EED 0x1EED Ll; R 0x1EEE 0x1EEE Lu; R 0x1EEF 0x1EEF Ll; R 0x1EF0 0x1EF0 Lu;
  R 0x1EF1 0x1EF1 Ll; R 0x1EF2 0x1EF2 Lu; R 0x1EF3 0x1EF3 Ll; R 0x1EF4 0x1EF4 Lu; R 0x1EF5 0x1EF5 Ll;
  R 0x1EF6 0x1EF6 Lu; R 0x1EF7 0x1EF7 Ll; R 0x1EF8 0x1EF8 Lu; R 0x1EF9 0x1EF9 Ll; R 0x1EFA 0x1EFA Lu;
  R 0x1EFB 0x1EFB Ll; R 0x1EFC 0x1EFC Lu; R 0x1EFD 0x1EFD Ll; R 0x1EFE 0x1EFE Lu; R 0x1EFF 0x1F07 Ll;
  R 0x1F08 0x1F0F Lu; R 0x1F10 0x1F15 Ll; R 0x1F18 0x1F1D Lu; R 0x1F20 0x1F27 Ll; R 0x1F28 0x1F2F Lu;
  R 0x1F30 0x1F37 Ll; R 0x1F38 0x1F3F Lu; R 0x1F40 0x1F45 Ll; R 0x1F48 0x1F4D Lu; R 0x1F50 0x1F57 Ll;
  R 0x1F59 0x1F59 Lu; R 0x1F5B 0x1F5B Lu; R 0x1F5D 0x1F5D Lu; R 0x1F5F 0x1F5F Lu; R 0x1F60 0x1F67 Ll;
  R 0x1F68 0x1F6F Lu; R 0x1F70 0x1F7D Ll; R 0x1F80 0x1F87 Ll; R 0x1F88 0x1F8F Lt; R 0x1F90 0x1F97 Ll;
  R 0x1F98 0x1F9F Lt; R 0x1FA0 0x1FA7 Ll; R 0x1FA8 0x1FAF Lt; R 0x1FB0 0x1FB4 Ll; R 0x1FB6 0x1FB7 Ll;
  R 0x1FB8 0x1FBB Lu; R 0x1FBC 0x1FBC Lt; R 0x1FBD 0x1FBD Sk; R 0x1FBE 0x1FBE Ll; R 0x1FBF 0x1FC1 Sk;
  R 0x1FC2 0x1FC4 Ll; R 0x1FC6 0x1FC7 Ll; R 0x1FC8 0x1FCB Lu; R 0x1FCC 0x1FCC Lt; R 0x1FCD 0x1FCF Sk;
  R 0x1FD0 0x1FD3 Ll; R 0x1FD6 0x1FD7 Ll; R 0x1FD8 0x1FDB Lu; R 0x1FDD 0x1FDF Sk; R 0x1FE0 0x1FE7 Ll;
  R 0x1FE8 0x1FEC Lu; R 0x1FED 0x1FEF Sk; R 0x1FF2 0x1FF4 Ll; R 0x1FF6 0x1FF7 Ll; R 0x1FF8 0x1FFB Lu;
  R 0x1FFC 0x1FFC Lt; R 0x1FFD 0x1FFE Sk; R 0x2000 0x200A Zs; R 0x200B 0x200F Cf; R 0x2010 0x2015 Pd;
  R 0x2016 0x2017 Po; R 0x2018 0x2018 Pi; R 0x2019 0x2019 Pf; R 0x201A 0x201A Ps; R 0x201B 0x201C Pi;
  R 0x201D 0x201D Pf; R 0x201E 0x201E Ps; R 0x201F 0x201F Pi; R 0x2020 0x2027 Po; R 0x2028 0x2028 Zl;
  R 0x2029 0x2029 Zp; R 0x202A 0x202E Cf; R 0x202F 0x202F Zs; R 0x2030 0x2038 Po; R 0x2039 0x2039 Pi;
  R 0x203A 0x203A Pf; R 0x203B 0x203E Po; R 0x203F 0x2040 Pc; R 0x2041 0x2043 Po; R 0x2044 0x2044 Sm;
  R 0x2045 0x2045 Ps; R 0x2046 0x2046 Pe; R 0x2047 0x2051 Po; R 0x2052 0x2052 Sm; R 0x2053 0x2053 Po;
  R 0x2054 0x2054 Pc; R 0x2055 0x205E Po; R 0x205F 0x205F Zs; R 0x2060 0x2064 Cf; R 0x2066 0x206F Cf;
  R 0x2070 0x2070 No; R 0x2071 0x2071 Lm; R 0x2074 0x2079 No; R 0x207A 0x207C Sm; R 0x207D 0x207D Ps;
  R 0x207E 0x207E Pe; R 0x207F 0x207F Lm; R 0x2080 0x2089 No; R 0x208A 0x208C Sm; R 0x208D 0x208D Ps;
  R 0x208E 0x208E Pe; R 0x2090 0x209C Lm; R 0x20A0 0x20C0 Sc; R 0x20D0 0x20DC Mn; R 0x20DD 0x20E0 Me;
  R 0x20E1 0x20E1 Mn; R 0x20E2 0x20E4 Me; R 0x20E5 0x20F0 Mn; R 0x2100 0x2101 So; R 0x2102 0x2102 Lu].
Definition property_cases_4 : list (entry category) := [
  R 0x2103 0x2106 So; R 0x2107 0x2107 Lu; R 0x2108 0x2109 So; R 0x210A 0x210A Ll; R 0x210B 0x210D Lu;
  R 0x210E 0x210F Ll; R 0x2110 0x2112 Lu; R 0x2113 0x2113 Ll; R 0x2114 0x2114 So; R 0x2115 0x2115 Lu;
  R 0x2116 0x2117 So; R 0x2118 0x2118 Sm; R 0x2119 0x211D Lu; R 0x211E 0x2123 So; R 0x2124 0x2124 Lu;
  R 0x2125 0x2125 So; R 0x2126 0x2126 Lu; R 0x2127 0x2127 So; R 0x2128 0x2128 Lu; R 0x2129 0x2129 So;
  R 0x212A 0x212D Lu; R 0x212E 0x212E So; R 0x212F 0x212F Ll; R 0x2130 0x2133 Lu; R 0x2134 0x2134 Ll;
  R 0x2135 0x2138 Lo; R 0x2139 0x2139 Ll; R 0x213A 0x213B So; R 0x213C 0x213D Ll; R 0x213E 0x213F Lu;
  R 0x2140 0x2144 Sm; R 0x2145 0x2145 Lu; R 0x2146 0x2149 Ll; R 0x214A 0x214A So; R 0x214B 0x214B Sm;
  R 0x214C 0x214D So; R 0x214E 0x214E Ll; R 0x214F 0x214F So; R 0x2150 0x215F No; R 0x2160 0x2182 Nl;
  R 0x2183 0x2183 Lu; R 0x2184 0x2184 Ll; R 0x2185 0x2188 Nl; R 0x2189 0x2189 No; R 0x218A 0x218B So;
  R 0x2190 0x2194 Sm; R 0x2195 0x2199 So; R 0x219A 0x219B Sm; R 0x219C 0x219F So; R 0x21A0 0x21A0 Sm;
  R 0x21A1 0x21A2 So; R 0x21A3 0x21A3 Sm; R 0x21A4 0x21A5 So; R 0x21A6 0x21A6 Sm; R 0x21A7 0x21AD So;
  R 0x21AE 0x21AE Sm; R 0x21AF 0x21CD So; R 0x21CE 0x21CF Sm; R 0x21D0 0x21D1 So; R 0x21D2 0x21D2 Sm;
  R 0x21D3 0x21D3 So; R 0x21D4 0x21D4 Sm; R 0x21D5 0x21F3 So; R 0x21F4 0x22FF Sm; R 0x2300 0x2307 So;
  R 0x2308 0x2308 Ps; R 0x2309 0x2309 Pe; R 0x230A 0x230A Ps; R 0x230B 0x230B Pe; R 0x230C 0x231F So;
  R 0x2320 0x2321 Sm; R 0x2322 0x2328 So; R 0x2329 0x2329 Ps; R 0x232A 0x232A Pe; R 0x232B 0x237B So;
  R 0x237C 0x237C Sm; R 0x237D 0x239A So; R 0x239B 0x23B3 Sm; R 0x23B4 0x23DB So; R 0x23DC 0x23E1 Sm;
  R 0x23E2 0x2426 So; R 0x2440 0x244A So; R 0x2460 0x249B No; R 0x249C 0x24E9 So; R 0x24EA 0x24FF No;
  R 0x2500 0x25B6 So; R 0x25B7 0x25B7 Sm; R 0x25B8 0x25C0 So; R 0x25C1 0x25C1 Sm; R 0x25C2 0x25F7 So;
  R 0x25F8 0x25FF Sm; R 0x2600 0x266E So; R 0x266F 0x266F Sm; R 0x2670 0x2767 So; R 0x2768 0x2768 Ps;
  R 0x2769 0x2769 Pe; R 0x276A 0x276A Ps; R 0x276B 0x276B Pe; R 0x276C 0x276C Ps; R 0x276D 0x276D Pe;
  R 0x276E 0x276E Ps; R 0x276F 0x276F Pe; R 0x2770 0x2770 Ps; R 0x2771 0x2771 Pe; R 0x2772 0x2772 Ps;
  R 0x2773 0x2773 Pe; R 0x2774 0x2774 Ps; R 0x2775 0x2775 Pe; R 0x2776 0x2793 No; R 0x2794 0x27BF So;
  R 0x27C0 0x27C4 Sm; R 0x27C5 0x27C5 Ps; R 0x27C6 0x27C6 Pe; R 0x27C7 0x27E5 Sm; R 0x27E6 0x27E6 Ps;
  R 0x27E7 0x27E7 Pe; R 0x27E8 0x27E8 Ps; R 0x27E9 0x27E9 Pe; R 0x27EA 0x27EA Ps; R 0x27EB 0x27EB Pe;
  R 0x27EC 0x27EC Ps; R 0x27ED 0x27ED Pe; R 0x27EE 0x27EE Ps; R 0x27EF 0x27EF Pe; R 0x27F0 0x27FF Sm;
  R 0x2800 0x28FF So; R 0x2900 0x2982 Sm; R 0x2983 0x2983 Ps; R 0x2984 0x2984 Pe; R 0x2985 0x2985 Ps;
  R 0x2986 0x2986 Pe; R 0x2987 0x2987 Ps; R 0x2988 0x2988 Pe; R 0x2989 0x2989 Ps; R 0x298A 0x298A Pe;
  R 0x298B 0x298B Ps; R 0x298C 0x298C Pe; R 0x298D 0x298D Ps; R 0x298E 0x298E Pe; R 0x298F 0x298F Ps;
  R 0x2990 0x2990 Pe; R 0x2991 0x2991 Ps; R 0x2992 0x2992 Pe; R 0x2993 0x2993 Ps; R 0x2994 0x2994 Pe;
  R 0x2995 0x2995 Ps; R 0x2996 0x2996 Pe; R 0x2997 0x2997 Ps; R 0x2998 0x2998 Pe; R 0x2999 0x29D7 Sm;
  R 0x29D8 0x29D8 Ps; R 0x29D9 0x29D9 Pe; R 0x29DA 0x29DA Ps; R 0x29DB 0x29DB Pe; R 0x29DC 0x29FB Sm;
  R 0x29FC 0x29FC Ps; R 0x29FD 0x29FD Pe; R 0x29FE 0x2AFF Sm; R 0x2B00 0x2B2F So; R 0x2B30 0x2B44 Sm;
  R 0x2B45 0x2B46 So; R 0x2B47 0x2B4C Sm; R 0x2B4D 0x2B73 So; R 0x2B76 0x2B95 So; R 0x2B97 0x2BFF So;
  R 0x2C00 0x2C2F Lu; R 0x2C30 0x2C5F Ll; R 0x2C60 0x2C60 Lu; R 0x2C61 0x2C61 Ll; R 0x2C62 0x2C64 Lu;
  R 0x2C65 0x2C66 Ll; R 0x2C67 0x2C67 Lu; R 0x2C68 0x2C68 Ll; R 0x2C69 0x2C69 Lu; R 0x2C6A 0x2C6A Ll;
  R 0x2C6B 0x2C6B Lu; R 0x2C6C 0x2C6C Ll; R 0x2C6D 0x2C70 Lu; R 0x2C71 0x2C71 Ll; R 0x2C72 0x2C72 Lu;
  R 0x2C73 0x2C74 Ll; R 0x2C75 0x2C75 Lu; R 0x2C76 0x2C7B Ll; R 0x2C7C 0x2C7D Lm; R 0x2C7E 0x2C80 Lu;
  R 0x2C81 0x2C81 Ll; R 0x2C82 0x2C82 Lu; R 0x2C83 0x2C83 Ll; R 0x2C84 0x2C84 Lu; R 0x2C85 0x2C85 Ll;
  R 0x2C86 0x2C86 Lu; R 0x2C87 0x2C87 Ll; R 0x2C88 0x2C88 Lu; R 0x2C89 0x2C89 Ll; R 0x2C8A 0x2C8A Lu;
  R 0x2C8B 0x2C8B Ll; R 0x2C8C 0x2C8C Lu; R 0x2C8D 0x2C8D Ll; R 0x2C8E 0x2C8E Lu; R 0x2C8F 0x2C8F Ll;
  R 0x2C90 0x2C90 Lu; R 0x2C91 0x2C91 Ll; R 0x2C92 0x2C92 Lu; R 0x2C93 0x2C93 Ll; R 0x2C94 0x2C94 Lu;
  R 0x2C95 0x2C95 Ll; R 0x2C96 0x2C96 Lu; R 0x2C97 0x2C97 Ll; R 0x2C98 0x2C98 Lu; R 0x2C99 0x2C99 Ll;
  R 0x2C9A 0x2C9A Lu; R 0x2C9B 0x2C9B Ll; R 0x2C9C 0x2C9C Lu; R 0x2C9D 0x2C9D Ll; R 0x2C9E 0x2C9E Lu;
  R 0x2C9F 0x2C9F Ll; R 0x2CA0 0x2CA0 Lu; R 0x2CA1 0x2CA1 Ll; R 0x2CA2 0x2CA2 Lu; R 0x2CA3 0x2CA3 Ll;
  R 0x2CA4 0x2CA4 Lu; R 0x2CA5 0x2CA5 Ll; R 0x2CA6 0x2CA6 Lu; R 0x2CA7 0x2CA7 Ll; R 0x2CA8 0x2CA8 Lu;
  R 0x2CA9 0x2CA9 Ll; R 0x2CAA 0x2CAA Lu; R 0x2CAB 0x2CAB Ll; R 0x2CAC 0x2CAC Lu; R 0x2CAD 0x2CAD Ll;
  R 0x2CAE 0x2CAE Lu; R 0x2CAF 0x2CAF Ll; R 0x2CB0 0x2CB0 Lu; R 0x2CB1 0x2CB1 Ll; R 0x2CB2 0x2CB2 Lu;
  R 0x2CB3 0x2CB3 Ll; R 0x2CB4 0x2CB4 Lu; R 0x2CB5 0x2CB5 Ll; R 0x2CB6 0x2CB6 Lu; R 0x2CB7 0x2CB7 Ll;
  R 0x2CB8 0x2CB8 Lu; R 0x2CB9 0x2CB9 Ll; R 0x2CBA 0x2CBA Lu; R 0x2CBB 0x2CBB Ll; R 0x2CBC 0x2CBC Lu;
  R 0x2CBD 0x2CBD Ll; R 0x2CBE 0x2CBE Lu; R 0x2CBF 0x2CBF Ll; R 0x2CC0 0x2CC0 Lu; R 0x2CC1 0x2CC1 Ll;
  R 0x2CC2 0x2CC2 Lu; R 0x2CC3 0x2CC3 Ll; R 0x2CC4 0x2CC4 Lu; R 0x2CC5 0x2CC5 Ll; R 0x2CC6 0x2CC6 Lu;
  R 0x2CC7 0x2CC7 Ll; R 0x2CC8 0x2CC8 Lu; R 0x2CC9 0x2CC9 Ll; R 0x2CCA 0x2CCA Lu; R 0x2CCB 0x2CCB Ll;
  R 0x2CCC 0x2CCC Lu; R 0x2CCD 0x2CCD Ll; R 0x2CCE 0x2CCE Lu; R 0x2CCF 0x2CCF Ll; R 0x2CD0 0x2CD0 Lu;
  R 0x2CD1 0x2CD1 Ll; R 0x2CD2 0x2CD2 Lu; R 0x2CD3 0x2CD3 Ll; R 0x2CD4 0x2CD4 Lu; R 0x2CD5 0x2CD5 Ll;
  R 0x2CD6 0x2CD6 Lu; R 0x2CD7 0x2CD7 Ll; R 0x2CD8 0x2CD8 Lu; R 0x2CD9 0x2CD9 Ll; R 0x2CDA 0x2CDA Lu;
  R 0x2CDB 0x2CDB Ll; R 0x2CDC 0x2CDC Lu; R 0x2CDD 0x2CDD Ll; R 0x2CDE 0x2CDE Lu; R 0x2CDF 0x2CDF Ll;
  R 0x2CE0 0x2CE0 Lu; R 0x2CE1 0x2CE1 Ll; R 0x2CE2 0x2CE2 Lu; R 0x2CE3 0x2CE4 Ll; R 0x2CE5 0x2CEA So;
  R 0x2CEB 0x2CEB Lu; R 0x2CEC 0x2CEC Ll; R 0x2CED 0x2CED Lu; R 0x2CEE 0x2CEE Ll; R 0x2CEF 0x2CF1 Mn;
  R 0x2CF2 0x2CF2 Lu; R 0x2CF3 0x2CF3 Ll; R 0x2CF9 0x2CFC Po; R 0x2CFD 0x2CFD No; R 0x2CFE 0x2CFF Po;
  R 0x2D00 0x2D25 Ll; R 0x2D27 0x2D27 Ll; R 0x2D2D 0x2D2D Ll; R 0x2D30 0x2D67 Lo; R 0x2D6F 0x2D6F Lm;
  R 0x2D70 0x2D70 Po; R 0x2D7F 0x2D7F Mn; R 0x2D80 0x2D96 Lo; R 0x2DA0 0x2DA6 Lo; R 0x2DA8 0x2DAE Lo;
  R 0x2DB0 0x2DB6 Lo; R 0x2DB8 0x2DBE Lo; R 0x2DC0 0x2DC6 Lo; R 0x2DC8 0x2DCE Lo; R 0x2DD0 0x2DD6 Lo;
  R 0x2DD8 0x2DDE Lo; R 0x2DE0 0x2DFF Mn; R 0x2E00 0x2E01 Po; R 0x2E02 0x2E02 Pi; R 0x2E03 0x2E03 Pf;
  R 0x2E04 0x2E04 Pi; R 0x2E05 0x2E05 Pf; R 0x2E06 0x2E08 Po; R 0x2E09 0x2E09 Pi; R 0x2E0A 0x2E0A Pf;
  R 0x2E0B 0x2E0B Po; R 0x2E0C 0x2E0C Pi; R 0x2E0D 0x2E0D Pf; R 0x2E0E 0x2E16 Po; R 0x2E17 0x2E17 Pd;
  R 0x2E18 0x2E19 Po; R 0x2E1A 0x2E1A Pd; R 0x2E1B 0x2E1B Po; R 0x2E1C 0x2E1C Pi; R 0x2E1D 0x2E1D Pf;
  R 0x2E1E 0x2E1F Po; R 0x2E20 0x2E20 Pi; R 0x2E21 0x2E21 Pf; R 0x2E22 0x2E22 Ps; R 0x2E23 0x2E23 Pe;
  R 0x2E24 0x2E24 Ps; R 0x2E25 0x2E25 Pe; R 0x2E26 0x2E26 Ps; R 0x2E27 0x2E27 Pe; R 0x2E28 0x2E28 Ps;
  R 0x2E29 0x2E29 Pe; R 0x2E2A 0x2E2E Po; R 0x2E2F 0x2E2F Lm; R 0x2E30 0x2E39 Po; R 0x2E3A 0x2E3B Pd;
  R 0x2E3C 0x2E3F Po; R 0x2E40 0x2E40 Pd; R 0x2E41 0x2E41 Po; R 0x2E42 0x2E42 Ps; R 0x2E43 0x2E4F Po;
  R 0x2E50 0x2E51 So; R 0x2E52 0x2E54 Po; R 0x2E55 0x2E55 Ps; R 0x2E56 0x2E56 Pe; R 0x2E57 0x2E57 Ps;
  R 0x2E58 0x2E58 Pe; R 0x2E59 0x2E59 Ps; R 0x2E5A 0x2E5A Pe; R 0x2E5B 0x2E5B Ps; R 0x2E5C 0x2E5C Pe;
  R 0x2E5D 0x2E5D Pd; R 0x2E80 0x2E99 So; R 0x2E9B 0x2EF3 So; R 0x2F00 0x2FD5 So; R 0x2FF0 0x2FFF So;
  R 0x3000 0x3000 Zs; R 0x3001 0x3003 Po; R 0x3004 0x3004 So; R 0x3005 0x3005 Lm; R 0x3006 0x3006 Lo;
  R 0x3007 0x3007 Nl; R 0x3008 0x3008 Ps; R 0x3009 0x3009 Pe; R 0x300A 0x300A Ps; R 0x300B 0x300B Pe;
  R 0x300C 0x300C Ps; R 0x300D 0x300D Pe; R 0x300E 0x300E Ps; R 0x300F 0x300F Pe; R 0x3010 0x3010 Ps;
  R 0x3011 0x3011 Pe; R 0x3012 0x3013 So; R 0x3014 0x3014 Ps; R 0x3015 0x3015 Pe; R 0x3016 0x3016 Ps;
  R 0x3017 0x3017 Pe; R 0x3018 0x3018 Ps; R 0x3019 0x3019 Pe; R 0x301A 0x301A Ps; R 0x301B 0x301B Pe;
  R 0x301C 0x301C Pd; R 0x301D 0x301D Ps; R 0x301E 0x301F Pe; R 0x3020 0x3020 So; R 0x3021 0x3029 Nl;
  R 0x302A 0x302D Mn; R 0x302E 0x302F Mc; R 0x3030 0x3030 Pd; R 0x3031 0x3035 Lm; R 0x3036 0x3037 So].
Definition property_cases_5 : list (entry category) := [
  R 0x3038 0x303A Nl; R 0x303B 0x303B Lm; R 0x303C 0x303C Lo; R 0x303D 0x303D Po; R 0x303E 0x303F So;
  R 0x3041 0x3096 Lo; R 0x3099 0x309A Mn; R 0x309B 0x309C Sk; R 0x309D 0x309E Lm; R 0x309F 0x309F Lo;
  R 0x30A0 0x30A0 Pd; R 0x30A1 0x30FA Lo; R 0x30FB 0x30FB Po; R 0x30FC 0x30FE Lm; R 0x30FF 0x30FF Lo;
  R 0x3105 0x312F Lo; R 0x3131 0x318E Lo; R 0x3190 0x3191 So; R 0x3192 0x3195 No; R 0x3196 0x319F So;
  R 0x31A0 0x31BF Lo; R 0x31C0 0x31E3 So; R 0x31EF 0x31EF So; R 0x31F0 0x31FF Lo; R 0x3200 0x321E So;
  R 0x3220 0x3229 No; R 0x322A 0x3247 So; R 0x3248 0x324F No; R 0x3250 0x3250 So; R 0x3251 0x325F No;
  R 0x3260 0x327F So; R 0x3280 0x3289 No; R 0x328A 0x32B0 So; R 0x32B1 0x32BF No; R 0x32C0 0x33FF So;
  R 0x3400 0x3400 Lo; R 0x4DBF 0x4DBF Lo; R 0x4DC0 0x4DFF So; R 0x4E00 0x4E00 Lo; R 0x9FFF 0xA014 Lo;
  R 0xA015 0xA015 Lm; R 0xA016 0xA48C Lo; R 0xA490 0xA4C6 So; R 0xA4D0 0xA4F7 Lo; R 0xA4F8 0xA4FD Lm;
  R 0xA4FE 0xA4FF Po; R 0xA500 0xA60B Lo; R 0xA60C 0xA60C Lm; R 0xA60D 0xA60F Po; R 0xA610 0xA61F Lo;
  R 0xA620 0xA629 Nd; R 0xA62A 0xA62B Lo; R 0xA640 0xA640 Lu; R 0xA641 0xA641 Ll; R 0xA642 0xA642 Lu;
  R 0xA643 0xA643 Ll; R 0xA644 0xA644 Lu; R 0xA645 0xA645 Ll; R 0xA646 0xA646 Lu; R 0xA647 0xA647 Ll;
  R 0xA648 0xA648 Lu; R 0xA649 0xA649 Ll; R 0xA64A 0xA64A Lu; R 0xA64B 0xA64B Ll; R 0xA64C 0xA64C Lu;
  R 0xA64D 0xA64D Ll; R 0xA64E 0xA64E Lu; R 0xA64F 0xA64F Ll; R 0xA650 0xA650 Lu; R 0xA651 0xA651 Ll;
  R 0xA652 0xA652 Lu; R 0xA653 0xA653 Ll; R 0xA654 0xA654 Lu; R 0xA655 0xA655 Ll; R 0xA656 0xA656 Lu;
  R 0xA657 0xA657 Ll; R 0xA658 0xA658 Lu; R 0xA659 0xA659 Ll; R 0xA65A 0xA65A Lu; R 0xA65B 0xA65B Ll;
  R 0xA65C 0xA65C Lu; R 0xA65D 0xA65D Ll; R 0xA65E 0xA65E Lu; R 0xA65F 0xA65F Ll; R 0xA660 0xA660 Lu;
  R 0xA661 0xA661 Ll; R 0xA662 0xA662 Lu; R 0xA663 0xA663 Ll; R 0xA664 0xA664 Lu; R 0xA665 0xA665 Ll;
  R 0xA666 0xA666 Lu; R 0xA667 0xA667 Ll; R 0xA668 0xA668 Lu; R 0xA669 0xA669 Ll; R 0xA66A 0xA66A Lu;
  R 0xA66B 0xA66B Ll; R 0xA66C 0xA66C Lu; R 0xA66D 0xA66D Ll; R 0xA66E 0xA66E Lo; R 0xA66F 0xA66F Mn;
  R 0xA670 0xA672 Me; R 0xA673 0xA673 Po; R 0xA674 0xA67D Mn; R 0xA67E 0xA67E Po; R 0xA67F 0xA67F Lm;
  R 0xA680 0xA680 Lu; R 0xA681 0xA681 Ll; R 0xA682 0xA682 Lu; R 0xA683 0xA683 Ll; R 0xA684 0xA684 Lu;
  R 0xA685 0xA685 Ll; R 0xA686 0xA686 Lu; R 0xA687 0xA687 Ll; R 0xA688 0xA688 Lu; R 0xA689 0xA689 Ll;
  R 0xA68A 0xA68A Lu; R 0xA68B 0xA68B Ll; R 0xA68C 0xA68C Lu; R 0xA68D 0xA68D Ll; R 0xA68E 0xA68E Lu;
  R 0xA68F 0xA68F Ll; R 0xA690 0xA690 Lu; R 0xA691 0xA691 Ll; R 0xA692 0xA692 Lu; R 0xA693 0xA693 Ll;
  R 0xA694 0xA694 Lu; R 0xA695 0xA695 Ll; R 0xA696 0xA696 Lu; R 0xA697 0xA697 Ll; R 0xA698 0xA698 Lu;
  R 0xA699 0xA699 Ll; R 0xA69A 0xA69A Lu; R 0xA69B 0xA69B Ll; R 0xA69C 0xA69D Lm; R 0xA69E 0xA69F Mn;
  R 0xA6A0 0xA6E5 Lo; R 0xA6E6 0xA6EF Nl; R 0xA6F0 0xA6F1 Mn; R 0xA6F2 0xA6F7 Po; R 0xA700 0xA716 Sk;
  R 0xA717 0xA71F Lm; R 0xA720 0xA721 Sk; R 0xA722 0xA722 Lu; R 0xA723 0xA723 Ll; R 0xA724 0xA724 Lu;
  R 0xA725 0xA725 Ll; R 0xA726 0xA726 Lu; R 0xA727 0xA727 Ll; R 0xA728 0xA728 Lu; R 0xA729 0xA729 Ll;
  R 0xA72A 0xA72A Lu; R 0xA72B 0xA72B Ll; R 0xA72C 0xA72C Lu; R 0xA72D 0xA72D Ll; R 0xA72E 0xA72E Lu;
  R 0xA72F 0xA731 Ll; R 0xA732 0xA732 Lu; R 0xA733 0xA733 Ll; R 0xA734 0xA734 Lu; R 0xA735 0xA735 Ll;
  R 0xA736 0xA736 Lu; R 0xA737 0xA737 Ll; R 0xA738 0xA738 Lu; R 0xA739 0xA739 Ll; R 0xA73A 0xA73A Lu;
  R 0xA73B 0xA73B Ll; R 0xA73C 0xA73C Lu; R 0xA73D 0xA73D Ll; R 0xA73E 0xA73E Lu; R 0xA73F 0xA73F Ll;
  R 0xA740 0xA740 Lu; R 0xA741 0xA741 Ll; R 0xA742 0xA742 Lu; R 0xA743 0xA743 Ll; R 0xA744 0xA744 Lu;
  R 0xA745 0xA745 Ll; R 0xA746 0xA746 Lu; R 0xA747 0xA747 Ll; R 0xA748 0xA748 Lu; R 0xA749 0xA749 Ll;
  R 0xA74A 0xA74A Lu; R 0xA74B 0xA74B Ll; R 0xA74C 0xA74C Lu; R 0xA74D 0xA74D Ll; R 0xA74E 0xA74E Lu;
  R 0xA74F 0xA74F Ll; R 0xA750 0xA750 Lu; R 0xA751 0xA751 Ll; R 0xA752 0xA752 Lu; R 0xA753 0xA753 Ll;
  R 0xA754 0xA754 Lu; R 0xA755 0xA755 Ll; R 0xA756 0xA756 Lu; R 0xA757 0xA757 Ll; R 0xA758 0xA758 Lu;
  R 0xA759 0xA759 Ll; R 0xA75A 0xA75A Lu; R 0xA75B 0xA75B Ll; R 0xA75C 0xA75C Lu; R 0xA75D 0xA75D Ll;
  R 0xA75E 0xA75E Lu; R 0xA75F 0xA75F Ll; R 0xA760 0xA760 Lu; R 0xA761 0xA761 Ll; R 0xA762 0xA762 Lu;
  R 0xA763 0xA763 Ll; R 0xA764 0xA764 Lu; R 0xA765 0xA765 Ll; R 0xA766 0xA766 Lu; R 0xA767 0xA767 Ll;
  R 0xA768 0xA768 Lu; R 0xA769 0xA769 Ll; R 0xA76A 0xA76A Lu; R 0xA76B 0xA76B Ll; R 0xA76C 0xA76C Lu;
  R 0xA76D 0xA76D Ll; R 0xA76E 0xA76E Lu; R 0xA76F 0xA76F Ll; R 0xA770 0xA770 Lm; R 0xA771 0xA778 Ll;
  R 0xA779 0xA779 Lu; R 0xA77A 0xA77A Ll; R 0xA77B 0xA77B Lu; R 0xA77C 0xA77C Ll; R 0xA77D 0xA77E Lu;
  R 0xA77F 0xA77F Ll; R 0xA780 0xA780 Lu; R 0xA781 0xA781 Ll; R 0xA782 0xA782 Lu; R 0xA783 0xA783 Ll;
  R 0xA784 0xA784 Lu; R 0xA785 0xA785 Ll; R 0xA786 0xA786 Lu; R 0xA787 0xA787 Ll; R 0xA788 0xA788 Lm;
  R 0xA789 0xA78A Sk; R 0xA78B 0xA78B Lu; R 0xA78C 0xA78C Ll; R 0xA78D 0xA78D Lu; R 0xA78E 0xA78E Ll;
  R 0xA78F 0xA78F Lo; R 0xA790 0xA790 Lu; R 0xA791 0xA791 Ll; R 0xA792 0xA792 Lu; R 0xA793 0xA795 Ll;
  R 0xA796 0xA796 Lu; R 0xA797 0xA797 Ll; R 0xA798 0xA798 Lu; R 0xA799 0xA799 Ll; R 0xA79A 0xA79A Lu;
  R 0xA79B 0xA79B Ll; R 0xA79C 0xA79C Lu; R 0xA79D 0xA79D Ll; R 0xA79E 0xA79E Lu; R 0xA79F 0xA79F Ll;
  R 0xA7A0 0xA7A0 Lu; R 0xA7A1 0xA7A1 Ll; R 0xA7A2 0xA7A2 Lu; R 0xA7A3 0xA7A3 Ll; R 0xA7A4 0xA7A4 Lu;
  R 0xA7A5 0xA7A5 Ll; R 0xA7A6 0xA7A6 Lu; R 0xA7A7 0xA7A7 Ll; R 0xA7A8 0xA7A8 Lu; R 0xA7A9 0xA7A9 Ll;
  R 0xA7AA 0xA7AE Lu; R 0xA7AF 0xA7AF Ll; R 0xA7B0 0xA7B4 Lu; R 0xA7B5 0xA7B5 Ll; R 0xA7B6 0xA7B6 Lu;
  R 0xA7B7 0xA7B7 Ll; R 0xA7B8 0xA7B8 Lu; R 0xA7B9 0xA7B9 Ll; R 0xA7BA 0xA7BA Lu; R 0xA7BB 0xA7BB Ll;
  R 0xA7BC 0xA7BC Lu; R 0xA7BD 0xA7BD Ll; R 0xA7BE 0xA7BE Lu; R 0xA7BF 0xA7BF Ll; R 0xA7C0 0xA7C0 Lu;
  R 0xA7C1 0xA7C1 Ll; R 0xA7C2 0xA7C2 Lu; R 0xA7C3 0xA7C3 Ll; R 0xA7C4 0xA7C7 Lu; R 0xA7C8 0xA7C8 Ll;
  R 0xA7C9 0xA7C9 Lu; R 0xA7CA 0xA7CA Ll; R 0xA7D0 0xA7D0 Lu; R 0xA7D1 0xA7D1 Ll; R 0xA7D3 0xA7D3 Ll;
  R 0xA7D5 0xA7D5 Ll; R 0xA7D6 0xA7D6 Lu; R 0xA7D7 0xA7D7 Ll; R 0xA7D8 0xA7D8 Lu; R 0xA7D9 0xA7D9 Ll;
  R 0xA7F2 0xA7F4 Lm; R 0xA7F5 0xA7F5 Lu; R 0xA7F6 0xA7F6 Ll; R 0xA7F7 0xA7F7 Lo; R 0xA7F8 0xA7F9 Lm;
  R 0xA7FA 0xA7FA Ll; R 0xA7FB 0xA801 Lo; R 0xA802 0xA802 Mn; R 0xA803 0xA805 Lo; R 0xA806 0xA806 Mn;
  R 0xA807 0xA80A Lo; R 0xA80B 0xA80B Mn; R 0xA80C 0xA822 Lo; R 0xA823 0xA824 Mc; R 0xA825 0xA826 Mn;
  R 0xA827 0xA827 Mc; R 0xA828 0xA82B So; R 0xA82C 0xA82C Mn; R 0xA830 0xA835 No; R 0xA836 0xA837 So;
  R 0xA838 0xA838 Sc; R 0xA839 0xA839 So; R 0xA840 0xA873 Lo; R 0xA874 0xA877 Po; R 0xA880 0xA881 Mc;
  R 0xA882 0xA8B3 Lo; R 0xA8B4 0xA8C3 Mc; R 0xA8C4 0xA8C5 Mn; R 0xA8CE 0xA8CF Po; R 0xA8D0 0xA8D9 Nd;
  R 0xA8E0 0xA8F1 Mn; R 0xA8F2 0xA8F7 Lo; R 0xA8F8 0xA8FA Po; R 0xA8FB 0xA8FB Lo; R 0xA8FC 0xA8FC Po;
  R 0xA8FD 0xA8FE Lo; R 0xA8FF 0xA8FF Mn; R 0xA900 0xA909 Nd; R 0xA90A 0xA925 Lo; R 0xA926 0xA92D Mn;
  R 0xA92E 0xA92F Po; R 0xA930 0xA946 Lo; R 0xA947 0xA951 Mn; R 0xA952 0xA953 Mc; R 0xA95F 0xA95F Po;
  R 0xA960 0xA97C Lo; R 0xA980 0xA982 Mn; R 0xA983 0xA983 Mc; R 0xA984 0xA9B2 Lo; R 0xA9B3 0xA9B3 Mn;
  R 0xA9B4 0xA9B5 Mc; R 0xA9B6 0xA9B9 Mn; R 0xA9BA 0xA9BB Mc; R 0xA9BC 0xA9BD Mn; R 0xA9BE 0xA9C0 Mc;
  R 0xA9C1 0xA9CD Po; R 0xA9CF 0xA9CF Lm; R 0xA9D0 0xA9D9 Nd; R 0xA9DE 0xA9DF Po; R 0xA9E0 0xA9E4 Lo;
  R 0xA9E5 0xA9E5 Mn; R 0xA9E6 0xA9E6 Lm; R 0xA9E7 0xA9EF Lo; R 0xA9F0 0xA9F9 Nd; R 0xA9FA 0xA9FE Lo;
  R 0xAA00 0xAA28 Lo; R 0xAA29 0xAA2E Mn; R 0xAA2F 0xAA30 Mc; R 0xAA31 0xAA32 Mn; R 0xAA33 0xAA34 Mc;
  R 0xAA35 0xAA36 Mn; R 0xAA40 0xAA42 Lo; R 0xAA43 0xAA43 Mn; R 0xAA44 0xAA4B Lo; R 0xAA4C 0xAA4C Mn;
  R 0xAA4D 0xAA4D Mc; R 0xAA50 0xAA59 Nd; R 0xAA5C 0xAA5F Po; R 0xAA60 0xAA6F Lo; R 0xAA70 0xAA70 Lm;
  R 0xAA71 0xAA76 Lo; R 0xAA77 0xAA79 So; R 0xAA7A 0xAA7A Lo; R 0xAA7B 0xAA7B Mc; R 0xAA7C 0xAA7C Mn;
  R 0xAA7D 0xAA7D Mc; R 0xAA7E 0xAAAF Lo; R 0xAAB0 0xAAB0 Mn; R 0xAAB1 0xAAB1 Lo; R 0xAAB2 0xAAB4 Mn;
  R 0xAAB5 0xAAB6 Lo; R 0xAAB7 0xAAB8 Mn; R 0xAAB9 0xAABD Lo; R 0xAABE 0xAABF Mn; R 0xAAC0 0xAAC0 Lo;
  R 0xAAC1 0xAAC1 Mn; R 0xAAC2 0xAAC2 Lo; R 0xAADB 0xAADC Lo; R 0xAADD 0xAADD Lm; R 0xAADE 0xAADF Po;
  R 0xAAE0 0xAAEA Lo; R 0xAAEB 0xAAEB Mc; R 0xAAEC 0xAAED Mn; R 0xAAEE 0xAAEF Mc; R 0xAAF0 0xAAF1 Po].
Definition property_cases_6 : list (entry category) := [
  R 0xAAF2 0xAAF2 Lo; R 0xAAF3 0xAAF4 Lm; R 0xAAF5 0xAAF5 Mc; R 0xAAF6 0xAAF6 Mn; R 0xAB01 0xAB06 Lo;
  R 0xAB09 0xAB0E Lo; R 0xAB11 0xAB16 Lo; R 0xAB20 0xAB26 Lo; R 0xAB28 0xAB2E Lo; R 0xAB30 0xAB5A Ll;
  R 0xAB5B 0xAB5B Sk; R 0xAB5C 0xAB5F Lm; R 0xAB60 0xAB68 Ll; R 0xAB69 0xAB69 Lm; R 0xAB6A 0xAB6B Sk;
  R 0xAB70 0xABBF Ll; R 0xABC0 0xABE2 Lo; R 0xABE3 0xABE4 Mc; R 0xABE5 0xABE5 Mn; R 0xABE6 0xABE7 Mc;
  R 0xABE8 0xABE8 Mn; R 0xABE9 0xABEA Mc; R 0xABEB 0xABEB Po; R 0xABEC 0xABEC Mc; R 0xABED 0xABED Mn;
  R 0xABF0 0xABF9 Nd; R 0xAC00 0xAC00 Lo; R 0xD7A3 0xD7A3 Lo; R 0xD7B0 0xD7C6 Lo; R 0xD7CB 0xD7FB Lo;
  R 0xD800 0xD800 Cs; R 0xDB7F 0xDB80 Cs; R 0xDBFF 0xDC00 Cs; R 0xDFFF 0xDFFF Cs; R 0xE000 0xE000 Co;
  R 0xF8FF 0xF8FF Co; R 0xF900 0xFA6D Lo; R 0xFA70 0xFAD9 Lo; R 0xFB00 0xFB06 Ll; R 0xFB13 0xFB17 Ll;
  R 0xFB1D 0xFB1D Lo; R 0xFB1E 0xFB1E Mn; R 0xFB1F 0xFB28 Lo; R 0xFB29 0xFB29 Sm; R 0xFB2A 0xFB36 Lo;
  R 0xFB38 0xFB3C Lo; R 0xFB3E 0xFB3E Lo; R 0xFB40 0xFB41 Lo; R 0xFB43 0xFB44 Lo; R 0xFB46 0xFBB1 Lo;
  R 0xFBB2 0xFBC2 Sk; R 0xFBD3 0xFD3D Lo; R 0xFD3E 0xFD3E Pe; R 0xFD3F 0xFD3F Ps; R 0xFD40 0xFD4F So;
  R 0xFD50 0xFD8F Lo; R 0xFD92 0xFDC7 Lo; R 0xFDCF 0xFDCF So; R 0xFDF0 0xFDFB Lo; R 0xFDFC 0xFDFC Sc;
  R 0xFDFD 0xFDFF So; R 0xFE00 0xFE0F Mn; R 0xFE10 0xFE16 Po; R 0xFE17 0xFE17 Ps; R 0xFE18 0xFE18 Pe;
  R 0xFE19 0xFE19 Po; R 0xFE20 0xFE2F Mn; R 0xFE30 0xFE30 Po; R 0xFE31 0xFE32 Pd; R 0xFE33 0xFE34 Pc;
  R 0xFE35 0xFE35 Ps; R 0xFE36 0xFE36 Pe; R 0xFE37 0xFE37 Ps; R 0xFE38 0xFE38 Pe; R 0xFE39 0xFE39 Ps;
  R 0xFE3A 0xFE3A Pe; R 0xFE3B 0xFE3B Ps; R 0xFE3C 0xFE3C Pe; R 0xFE3D 0xFE3D Ps; R 0xFE3E 0xFE3E Pe;
  R 0xFE3F 0xFE3F Ps; R 0xFE40 0xFE40 Pe; R 0xFE41 0xFE41 Ps; R 0xFE42 0xFE42 Pe; R 0xFE43 0xFE43 Ps;
  R 0xFE44 0xFE44 Pe; R 0xFE45 0xFE46 Po; R 0xFE47 0xFE47 Ps; R 0xFE48 0xFE48 Pe; R 0xFE49 0xFE4C Po;
  R 0xFE4D 0xFE4F Pc; R 0xFE50 0xFE52 Po; R 0xFE54 0xFE57 Po; R 0xFE58 0xFE58 Pd; R 0xFE59 0xFE59 Ps;
  R 0xFE5A 0xFE5A Pe; R 0xFE5B 0xFE5B Ps; R 0xFE5C 0xFE5C Pe; R 0xFE5D 0xFE5D Ps; R 0xFE5E 0xFE5E Pe;
  R 0xFE5F 0xFE61 Po; R 0xFE62 0xFE62 Sm; R 0xFE63 0xFE63 Pd; R 0xFE64 0xFE66 Sm; R 0xFE68 0xFE68 Po;
  R 0xFE69 0xFE69 Sc; R 0xFE6A 0xFE6B Po; R 0xFE70 0xFE74 Lo; R 0xFE76 0xFEFC Lo; R 0xFEFF 0xFEFF Cf;
  R 0xFF01 0xFF03 Po; R 0xFF04 0xFF04 Sc; R 0xFF05 0xFF07 Po; R 0xFF08 0xFF08 Ps; R 0xFF09 0xFF09 Pe;
  R 0xFF0A 0xFF0A Po; R 0xFF0B 0xFF0B Sm; R 0xFF0C 0xFF0C Po; R 0xFF0D 0xFF0D Pd; R 0xFF0E 0xFF0F Po;
  R 0xFF10 0xFF19 Nd; R 0xFF1A 0xFF1B Po; R 0xFF1C 0xFF1E Sm; R 0xFF1F 0xFF20 Po; R 0xFF21 0xFF3A Lu;
  R 0xFF3B 0xFF3B Ps; R 0xFF3C 0xFF3C Po; R 0xFF3D 0xFF3D Pe; R 0xFF3E 0xFF3E Sk; R 0xFF3F 0xFF3F Pc;
  R 0xFF40 0xFF40 Sk; R 0xFF41 0xFF5A Ll; R 0xFF5B 0xFF5B Ps; R 0xFF5C 0xFF5C Sm; R 0xFF5D 0xFF5D Pe;
  R 0xFF5E 0xFF5E Sm; R 0xFF5F 0xFF5F Ps; R 0xFF60 0xFF60 Pe; R 0xFF61 0xFF61 Po; R 0xFF62 0xFF62 Ps;
  R 0xFF63 0xFF63 Pe; R 0xFF64 0xFF65 Po; R 0xFF66 0xFF6F Lo; R 0xFF70 0xFF70 Lm; R 0xFF71 0xFF9D Lo;
  R 0xFF9E 0xFF9F Lm; R 0xFFA0 0xFFBE Lo; R 0xFFC2 0xFFC7 Lo; R 0xFFCA 0xFFCF Lo; R 0xFFD2 0xFFD7 Lo;
  R 0xFFDA 0xFFDC Lo; R 0xFFE0 0xFFE1 Sc; R 0xFFE2 0xFFE2 Sm; R 0xFFE3 0xFFE3 Sk; R 0xFFE4 0xFFE4 So;
  R 0xFFE5 0xFFE6 Sc; R 0xFFE8 0xFFE8 So; R 0xFFE9 0xFFEC Sm; R 0xFFED 0xFFEE So; R 0xFFF9 0xFFFB Cf;
  R 0xFFFC 0xFFFD So; R 0x10000 0x1000B Lo; R 0x1000D 0x10026 Lo; R 0x10028 0x1003A Lo; R 0x1003C 0x1003D Lo;
  R 0x1003F 0x1004D Lo; R 0x10050 0x1005D Lo; R 0x10080 0x100FA Lo; R 0x10100 0x10102 Po; R 0x10107 0x10133 No;
  R 0x10137 0x1013F So; R 0x10140 0x10174 Nl; R 0x10175 0x10178 No; R 0x10179 0x10189 So; R 0x1018A 0x1018B No;
  R 0x1018C 0x1018E So; R 0x10190 0x1019C So; R 0x101A0 0x101A0 So; R 0x101D0 0x101FC So; R 0x101FD 0x101FD Mn;
  R 0x10280 0x1029C Lo; R 0x102A0 0x102D0 Lo; R 0x102E0 0x102E0 Mn; R 0x102E1 0x102FB No; R 0x10300 0x1031F Lo;
  R 0x10320 0x10323 No; R 0x1032D 0x10340 Lo; R 0x10341 0x10341 Nl; R 0x10342 0x10349 Lo; R 0x1034A 0x1034A Nl;
  R 0x10350 0x10375 Lo; R 0x10376 0x1037A Mn; R 0x10380 0x1039D Lo; R 0x1039F 0x1039F Po; R 0x103A0 0x103C3 Lo;
  R 0x103C8 0x103CF Lo; R 0x103D0 0x103D0 Po; R 0x103D1 0x103D5 Nl; R 0x10400 0x10427 Lu; R 0x10428 0x1044F Ll;
  R 0x10450 0x1049D Lo; R 0x104A0 0x104A9 Nd; R 0x104B0 0x104D3 Lu; R 0x104D8 0x104FB Ll; R 0x10500 0x10527 Lo;
  R 0x10530 0x10563 Lo; R 0x1056F 0x1056F Po; R 0x10570 0x1057A Lu; R 0x1057C 0x1058A Lu; R 0x1058C 0x10592 Lu;
  R 0x10594 0x10595 Lu; R 0x10597 0x105A1 Ll; R 0x105A3 0x105B1 Ll; R 0x105B3 0x105B9 Ll; R 0x105BB 0x105BC Ll;
  R 0x10600 0x10736 Lo; R 0x10740 0x10755 Lo; R 0x10760 0x10767 Lo; R 0x10780 0x10785 Lm; R 0x10787 0x107B0 Lm;
  R 0x107B2 0x107BA Lm; R 0x10800 0x10805 Lo; R 0x10808 0x10808 Lo; R 0x1080A 0x10835 Lo; R 0x10837 0x10838 Lo;
  R 0x1083C 0x1083C Lo; R 0x1083F 0x10855 Lo; R 0x10857 0x10857 Po; R 0x10858 0x1085F No; R 0x10860 0x10876 Lo;
  R 0x10877 0x10878 So; R 0x10879 0x1087F No; R 0x10880 0x1089E Lo; R 0x108A7 0x108AF No; R 0x108E0 0x108F2 Lo;
  R 0x108F4 0x108F5 Lo; R 0x108FB 0x108FF No; R 0x10900 0x10915 Lo; R 0x10916 0x1091B No; R 0x1091F 0x1091F Po;
  R 0x10920 0x10939 Lo; R 0x1093F 0x1093F Po; R 0x10980 0x109B7 Lo; R 0x109BC 0x109BD No; R 0x109BE 0x109BF Lo;
  R 0x109C0 0x109CF No; R 0x109D2 0x109FF No; R 0x10A00 0x10A00 Lo; R 0x10A01 0x10A03 Mn; R 0x10A05 0x10A06 Mn;
  R 0x10A0C 0x10A0F Mn; R 0x10A10 0x10A13 Lo; R 0x10A15 0x10A17 Lo; R 0x10A19 0x10A35 Lo; R 0x10A38 0x10A3A Mn;
  R 0x10A3F 0x10A3F Mn; R 0x10A40 0x10A48 No; R 0x10A50 0x10A58 Po; R 0x10A60 0x10A7C Lo; R 0x10A7D 0x10A7E No;
  R 0x10A7F 0x10A7F Po; R 0x10A80 0x10A9C Lo; R 0x10A9D 0x10A9F No; R 0x10AC0 0x10AC7 Lo; R 0x10AC8 0x10AC8 So;
  R 0x10AC9 0x10AE4 Lo; R 0x10AE5 0x10AE6 Mn; R 0x10AEB 0x10AEF No; R 0x10AF0 0x10AF6 Po; R 0x10B00 0x10B35 Lo;
  R 0x10B39 0x10B3F Po; R 0x10B40 0x10B55 Lo; R 0x10B58 0x10B5F No; R 0x10B60 0x10B72 Lo; R 0x10B78 0x10B7F No;
  R 0x10B80 0x10B91 Lo; R 0x10B99 0x10B9C Po; R 0x10BA9 0x10BAF No; R 0x10C00 0x10C48 Lo; R 0x10C80 0x10CB2 Lu;
  R 0x10CC0 0x10CF2 Ll; R 0x10CFA 0x10CFF No; R 0x10D00 0x10D23 Lo; R 0x10D24 0x10D27 Mn; R 0x10D30 0x10D39 Nd;
  R 0x10E60 0x10E7E No; R 0x10E80 0x10EA9 Lo; R 0x10EAB 0x10EAC Mn; R 0x10EAD 0x10EAD Pd; R 0x10EB0 0x10EB1 Lo;
  R 0x10EFD 0x10EFF Mn; R 0x10F00 0x10F1C Lo; R 0x10F1D 0x10F26 No; R 0x10F27 0x10F27 Lo; R 0x10F30 0x10F45 Lo;
  R 0x10F46 0x10F50 Mn; R 0x10F51 0x10F54 No; R 0x10F55 0x10F59 Po; R 0x10F70 0x10F81 Lo; R 0x10F82 0x10F85 Mn;
  R 0x10F86 0x10F89 Po; R 0x10FB0 0x10FC4 Lo; R 0x10FC5 0x10FCB No; R 0x10FE0 0x10FF6 Lo; R 0x11000 0x11000 Mc;
  R 0x11001 0x11001 Mn; R 0x11002 0x11002 Mc; R 0x11003 0x11037 Lo; R 0x11038 0x11046 Mn; R 0x11047 0x1104D Po;
  R 0x11052 0x11065 No; R 0x11066 0x1106F Nd; R 0x11070 0x11070 Mn; R 0x11071 0x11072 Lo; R 0x11073 0x11074 Mn;
  R 0x11075 0x11075 Lo; R 0x1107F 0x11081 Mn; R 0x11082 0x11082 Mc; R 0x11083 0x110AF Lo; R 0x110B0 0x110B2 Mc;
  R 0x110B3 0x110B6 Mn; R 0x110B7 0x110B8 Mc; R 0x110B9 0x110BA Mn; R 0x110BB 0x110BC Po; R 0x110BD 0x110BD Cf;
  R 0x110BE 0x110C1 Po; R 0x110C2 0x110C2 Mn; R 0x110CD 0x110CD Cf; R 0x110D0 0x110E8 Lo; R 0x110F0 0x110F9 Nd;
  R 0x11100 0x11102 Mn; R 0x11103 0x11126 Lo; R 0x11127 0x1112B Mn; R 0x1112C 0x1112C Mc; R 0x1112D 0x11134 Mn;
  R 0x11136 0x1113F Nd; R 0x11140 0x11143 Po; R 0x11144 0x11144 Lo; R 0x11145 0x11146 Mc; R 0x11147 0x11147 Lo;
  R 0x11150 0x11172 Lo; R 0x11173 0x11173 Mn; R 0x11174 0x11175 Po; R 0x11176 0x11176 Lo; R 0x11180 0x11181 Mn;
  R 0x11182 0x11182 Mc; R 0x11183 0x111B2 Lo; R 0x111B3 0x111B5 Mc; R 0x111B6 0x111BE Mn; R 0x111BF 0x111C0 Mc;
  R 0x111C1 0x111C4 Lo; R 0x111C5 0x111C8 Po; R 0x111C9 0x111CC Mn; R 0x111CD 0x111CD Po; R 0x111CE 0x111CE Mc;
  R 0x111CF 0x111CF Mn; R 0x111D0 0x111D9 Nd; R 0x111DA 0x111DA Lo; R 0x111DB 0x111DB Po; R 0x111DC 0x111DC Lo;
  R 0x111DD 0x111DF Po; R 0x111E1 0x111F4 No; R 0x11200 0x11211 Lo; R 0x11213 0x1122B Lo; R 0x1122C 0x1122E Mc;
  R 0x1122F 0x11231 Mn; R 0x11232 0x11233 Mc; R 0x11234 0x11234 Mn; R 0x11235 0x11235 Mc; R 0x11236 0x11237 Mn;
  R 0x11238 0x1123D Po; R 0x1123E 0x1123E Mn; R 0x1123F 0x11240 Lo; R 0x11241 0x11241 Mn; R 0x11280 0x11286 Lo;
  R 0x11288 0x11288 Lo; R 0x1128A 0x1128D Lo; R 0x1128F 0x1129D Lo; R 0x1129F 0x112A8 Lo; R 0x112A9 0x112A9 Po;
  R 0x112B0 0x112DE Lo; R 0x112DF 0x112DF Mn; R 0x112E0 0x112E2 Mc; R 0x112E3 0x112EA Mn; R 0x112F0 0x112F9 Nd;
  R 0x11300 0x11301 Mn; R 0x11302 0x11303 Mc; R 0x11305 0x1130C Lo; R 0x1130F 0x11310 Lo; R 0x11313 0x11328 Lo;
  R 0x1132A 0x11330 Lo; R 0x11332 0x11333 Lo; R 0x11335 0x11339 Lo; R 0x1133B 0x1133C Mn; R 0x1133D 0x1133D Lo;
  R 0x1133E 0x1133F Mc; R 0x11340 0x11340 Mn; R 0x11341 0x11344 Mc; R 0x11347 0x11348 Mc; R 0x1134B 0x1134D Mc].
Definition property_cases_7 : list (entry category) := [
  R 0x11350 0x11350 Lo; R 0x11357 0x11357 Mc; R 0x1135D 0x11361 Lo; R 0x11362 0x11363 Mc; R 0x11366 0x1136C Mn;
  R 0x11370 0x11374 Mn; R 0x11400 0x11434 Lo; R 0x11435 0x11437 Mc; R 0x11438 0x1143F Mn; R 0x11440 0x11441 Mc;
  R 0x11442 0x11444 Mn; R 0x11445 0x11445 Mc; R 0x11446 0x11446 Mn; R 0x11447 0x1144A Lo; R 0x1144B 0x1144F Po;
  R 0x11450 0x11459 Nd; R 0x1145A 0x1145B Po; R 0x1145D 0x1145D Po; R 0x1145E 0x1145E Mn; R 0x1145F 0x11461 Lo;
  R 0x11480 0x114AF Lo; R 0x114B0 0x114B2 Mc; R 0x114B3 0x114B8 Mn; R 0x114B9 0x114B9 Mc; R 0x114BA 0x114BA Mn;
  R 0x114BB 0x114BE Mc; R 0x114BF 0x114C0 Mn; R 0x114C1 0x114C1 Mc; R 0x114C2 0x114C3 Mn; R 0x114C4 0x114C5 Lo;
  R 0x114C6 0x114C6 Po; R 0x114C7 0x114C7 Lo; R 0x114D0 0x114D9 Nd; R 0x11580 0x115AE Lo; R 0x115AF 0x115B1 Mc;
  R 0x115B2 0x115B5 Mn; R 0x115B8 0x115BB Mc; R 0x115BC 0x115BD Mn; R 0x115BE 0x115BE Mc; R 0x115BF 0x115C0 Mn;
  R 0x115C1 0x115D7 Po; R 0x115D8 0x115DB Lo; R 0x115DC 0x115DD Mn; R 0x11600 0x1162F Lo; R 0x11630 0x11632 Mc;
  R 0x11633 0x1163A Mn; R 0x1163B 0x1163C Mc; R 0x1163D 0x1163D Mn; R 0x1163E 0x1163E Mc; R 0x1163F 0x11640 Mn;
  R 0x11641 0x11643 Po; R 0x11644 0x11644 Lo; R 0x11650 0x11659 Nd; R 0x11660 0x1166C Po; R 0x11680 0x116AA Lo;
  R 0x116AB 0x116AB Mn; R 0x116AC 0x116AC Mc; R 0x116AD 0x116AD Mn; R 0x116AE 0x116AF Mc; R 0x116B0 0x116B5 Mn;
  R 0x116B6 0x116B6 Mc; R 0x116B7 0x116B7 Mn; R 0x116B8 0x116B8 Lo; R 0x116B9 0x116B9 Po; R 0x116C0 0x116C9 Nd;
  R 0x11700 0x1171A Lo; R 0x1171D 0x1171F Mn; R 0x11720 0x11721 Mc; R 0x11722 0x11725 Mn; R 0x11726 0x11726 Mc;
  R 0x11727 0x1172B Mn; R 0x11730 0x11739 Nd; R 0x1173A 0x1173B No; R 0x1173C 0x1173E Po; R 0x1173F 0x1173F So;
  R 0x11740 0x11746 Lo; R 0x11800 0x1182B Lo; R 0x1182C 0x1182E Mc; R 0x1182F 0x11837 Mn; R 0x11838 0x11838 Mc;
  R 0x11839 0x1183A Mn; R 0x1183B 0x1183B Po; R 0x118A0 0x118BF Lu; R 0x118C0 0x118DF Ll; R 0x118E0 0x118E9 Nd;
  R 0x118EA 0x118F2 No; R 0x118FF 0x11906 Lo; R 0x11909 0x11909 Lo; R 0x1190C 0x11913 Lo; R 0x11915 0x11916 Lo;
  R 0x11918 0x1192F Lo; R 0x11930 0x11935 Mc; R 0x11937 0x11938 Mc; R 0x1193B 0x1193C Mn; R 0x1193D 0x1193D Mc;
  R 0x1193E 0x1193E Mn; R 0x1193F 0x1193F Lo; R 0x11940 0x11940 Mc; R 0x11941 0x11941 Lo; R 0x11942 0x11942 Mc;
  R 0x11943 0x11943 Mn; R 0x11944 0x11946 Po; R 0x11950 0x11959 Nd; R 0x119A0 0x119A7 Lo; R 0x119AA 0x119D0 Lo;
  R 0x119D1 0x119D3 Mc; R 0x119D4 0x119D7 Mn; R 0x119DA 0x119DB Mn; R 0x119DC 0x119DF Mc; R 0x119E0 0x119E0 Mn;
  R 0x119E1 0x119E1 Lo; R 0x119E2 0x119E2 Po; R 0x119E3 0x119E3 Lo; R 0x119E4 0x119E4 Mc; R 0x11A00 0x11A00 Lo;
  R 0x11A01 0x11A0A Mn; R 0x11A0B 0x11A32 Lo; R 0x11A33 0x11A38 Mn; R 0x11A39 0x11A39 Mc; R 0x11A3A 0x11A3A Lo;
  R 0x11A3B 0x11A3E Mn; R 0x11A3F 0x11A46 Po; R 0x11A47 0x11A47 Mn; R 0x11A50 0x11A50 Lo; R 0x11A51 0x11A56 Mn;
  R 0x11A57 0x11A58 Mc; R 0x11A59 0x11A5B Mn; R 0x11A5C 0x11A89 Lo; R 0x11A8A 0x11A96 Mn; R 0x11A97 0x11A97 Mc;
  R 0x11A98 0x11A99 Mn; R 0x11A9A 0x11A9C Po; R 0x11A9D 0x11A9D Lo; R 0x11A9E 0x11AA2 Po; R 0x11AB0 0x11AF8 Lo;
  R 0x11B00 0x11B09 Po; R 0x11C00 0x11C08 Lo; R 0x11C0A 0x11C2E Lo; R 0x11C2F 0x11C2F Mc; R 0x11C30 0x11C36 Mn;
  R 0x11C38 0x11C3D Mn; R 0x11C3E 0x11C3E Mc; R 0x11C3F 0x11C3F Mn; R 0x11C40 0x11C40 Lo; R 0x11C41 0x11C45 Po;
  R 0x11C50 0x11C59 Nd; R 0x11C5A 0x11C6C No; R 0x11C70 0x11C71 Po; R 0x11C72 0x11C8F Lo; R 0x11C92 0x11CA7 Mn;
  R 0x11CA9 0x11CA9 Mc; R 0x11CAA 0x11CB0 Mn; R 0x11CB1 0x11CB1 Mc; R 0x11CB2 0x11CB3 Mn; R 0x11CB4 0x11CB4 Mc;
  R 0x11CB5 0x11CB6 Mn; R 0x11D00 0x11D06 Lo; R 0x11D08 0x11D09 Lo; R 0x11D0B 0x11D30 Lo; R 0x11D31 0x11D36 Mn;
  R 0x11D3A 0x11D3A Mn; R 0x11D3C 0x11D3D Mn; R 0x11D3F 0x11D45 Mn; R 0x11D46 0x11D46 Lo; R 0x11D47 0x11D47 Mn;
  R 0x11D50 0x11D59 Nd; R 0x11D60 0x11D65 Lo; R 0x11D67 0x11D68 Lo; R 0x11D6A 0x11D89 Lo; R 0x11D8A 0x11D8E Mc;
  R 0x11D90 0x11D91 Mn; R 0x11D93 0x11D94 Mc; R 0x11D95 0x11D95 Mn; R 0x11D96 0x11D96 Mc; R 0x11D97 0x11D97 Mn;
  R 0x11D98 0x11D98 Lo; R 0x11DA0 0x11DA9 Nd; R 0x11EE0 0x11EF2 Lo; R 0x11EF3 0x11EF4 Mn; R 0x11EF5 0x11EF6 Mc;
  R 0x11EF7 0x11EF8 Po; R 0x11F00 0x11F01 Mn; R 0x11F02 0x11F02 Lo; R 0x11F03 0x11F03 Mc; R 0x11F04 0x11F10 Lo;
  R 0x11F12 0x11F33 Lo; R 0x11F34 0x11F35 Mc; R 0x11F36 0x11F3A Mn; R 0x11F3E 0x11F3F Mc; R 0x11F40 0x11F40 Mn;
  R 0x11F41 0x11F41 Mc; R 0x11F42 0x11F42 Mn; R 0x11F43 0x11F4F Po; R 0x11F50 0x11F59 Nd; R 0x11FB0 0x11FB0 Lo;
  R 0x11FC0 0x11FD4 No; R 0x11FD5 0x11FDC So; R 0x11FDD 0x11FE0 Sc; R 0x11FE1 0x11FF1 So; R 0x11FFF 0x11FFF Po;
  R 0x12000 0x12399 Lo; R 0x12400 0x1246E Nl; R 0x12470 0x12474 Po; R 0x12480 0x12543 Lo; R 0x12F90 0x12FF0 Lo;
  R 0x12FF1 0x12FF2 Po; R 0x13000 0x1342F Lo; R 0x13430 0x1343F Cf; R 0x13440 0x13440 Mn; R 0x13441 0x13446 Lo;
  R 0x13447 0x13455 Mn; R 0x14400 0x14646 Lo; R 0x16800 0x16A38 Lo; R 0x16A40 0x16A5E Lo; R 0x16A60 0x16A69 Nd;
  R 0x16A6E 0x16A6F Po; R 0x16A70 0x16ABE Lo; R 0x16AC0 0x16AC9 Nd; R 0x16AD0 0x16AED Lo; R 0x16AF0 0x16AF4 Mn;
  R 0x16AF5 0x16AF5 Po; R 0x16B00 0x16B2F Lo; R 0x16B30 0x16B36 Mn; R 0x16B37 0x16B3B Po; R 0x16B3C 0x16B3F So;
  R 0x16B40 0x16B43 Lm; R 0x16B44 0x16B44 Po; R 0x16B45 0x16B45 So; R 0x16B50 0x16B59 Nd; R 0x16B5B 0x16B61 No;
  R 0x16B63 0x16B77 Lo; R 0x16B7D 0x16B8F Lo; R 0x16E40 0x16E5F Lu; R 0x16E60 0x16E7F Ll; R 0x16E80 0x16E96 No;
  R 0x16E97 0x16E9A Po; R 0x16F00 0x16F4A Lo; R 0x16F4F 0x16F4F Mn; R 0x16F50 0x16F50 Lo; R 0x16F51 0x16F87 Mc;
  R 0x16F8F 0x16F92 Mn; R 0x16F93 0x16F9F Lm; R 0x16FE0 0x16FE1 Lm; R 0x16FE2 0x16FE2 Po; R 0x16FE3 0x16FE3 Lm;
  R 0x16FE4 0x16FE4 Mn; R 0x16FF0 0x16FF1 Mc; R 0x17000 0x17000 Lo; R 0x187F7 0x187F7 Lo; R 0x18800 0x18CD5 Lo;
  R 0x18D00 0x18D00 Lo; R 0x18D08 0x18D08 Lo; R 0x1AFF0 0x1AFF3 Lm; R 0x1AFF5 0x1AFFB Lm; R 0x1AFFD 0x1AFFE Lm;
  R 0x1B000 0x1B122 Lo; R 0x1B132 0x1B132 Lo; R 0x1B150 0x1B152 Lo; R 0x1B155 0x1B155 Lo; R 0x1B164 0x1B167 Lo;
  R 0x1B170 0x1B2FB Lo; R 0x1BC00 0x1BC6A Lo; R 0x1BC70 0x1BC7C Lo; R 0x1BC80 0x1BC88 Lo; R 0x1BC90 0x1BC99 Lo;
  R 0x1BC9C 0x1BC9C So; R 0x1BC9D 0x1BC9E Mn; R 0x1BC9F 0x1BC9F Po; R 0x1BCA0 0x1BCA3 Cf; R 0x1CF00 0x1CF2D Mn;
  R 0x1CF30 0x1CF46 Mn; R 0x1CF50 0x1CFC3 So; R 0x1D000 0x1D0F5 So; R 0x1D100 0x1D126 So; R 0x1D129 0x1D164 So;
  R 0x1D165 0x1D166 Mc; R 0x1D167 0x1D169 Mn; R 0x1D16A 0x1D16C So; R 0x1D16D 0x1D172 Mc; R 0x1D173 0x1D17A Cf;
  R 0x1D17B 0x1D182 Mn; R 0x1D183 0x1D184 So; R 0x1D185 0x1D18B Mn; R 0x1D18C 0x1D1A9 So; R 0x1D1AA 0x1D1AD Mn;
  R 0x1D1AE 0x1D1EA So; R 0x1D200 0x1D241 So; R 0x1D242 0x1D244 Mn; R 0x1D245 0x1D245 So; R 0x1D2C0 0x1D2D3 No;
  R 0x1D2E0 0x1D2F3 No; R 0x1D300 0x1D356 So; R 0x1D360 0x1D378 No; R 0x1D400 0x1D419 Lu; R 0x1D41A 0x1D433 Ll;
  R 0x1D434 0x1D44D Lu; R 0x1D44E 0x1D454 Ll; R 0x1D456 0x1D467 Ll; R 0x1D468 0x1D481 Lu; R 0x1D482 0x1D49B Ll;
  R 0x1D49C 0x1D49C Lu; R 0x1D49E 0x1D49F Lu; R 0x1D4A2 0x1D4A2 Lu; R 0x1D4A5 0x1D4A6 Lu; R 0x1D4A9 0x1D4AC Lu;
  R 0x1D4AE 0x1D4B5 Lu; R 0x1D4B6 0x1D4B9 Ll; R 0x1D4BB 0x1D4BB Ll; R 0x1D4BD 0x1D4C3 Ll; R 0x1D4C5 0x1D4CF Ll;
  R 0x1D4D0 0x1D4E9 Lu; R 0x1D4EA 0x1D503 Ll; R 0x1D504 0x1D505 Lu; R 0x1D507 0x1D50A Lu; R 0x1D50D 0x1D514 Lu;
  R 0x1D516 0x1D51C Lu; R 0x1D51E 0x1D537 Ll; R 0x1D538 0x1D539 Lu; R 0x1D53B 0x1D53E Lu; R 0x1D540 0x1D544 Lu;
  R 0x1D546 0x1D546 Lu; R 0x1D54A 0x1D550 Lu; R 0x1D552 0x1D56B Ll; R 0x1D56C 0x1D585 Lu; R 0x1D586 0x1D59F Ll;
  R 0x1D5A0 0x1D5B9 Lu; R 0x1D5BA 0x1D5D3 Ll; R 0x1D5D4 0x1D5ED Lu; R 0x1D5EE 0x1D607 Ll; R 0x1D608 0x1D621 Lu;
  R 0x1D622 0x1D63B Ll; R 0x1D63C 0x1D655 Lu; R 0x1D656 0x1D66F Ll; R 0x1D670 0x1D689 Lu; R 0x1D68A 0x1D6A5 Ll;
  R 0x1D6A8 0x1D6C0 Lu; R 0x1D6C1 0x1D6C1 Sm; R 0x1D6C2 0x1D6DA Ll; R 0x1D6DB 0x1D6DB Sm; R 0x1D6DC 0x1D6E1 Ll;
  R 0x1D6E2 0x1D6FA Lu; R 0x1D6FB 0x1D6FB Sm; R 0x1D6FC 0x1D714 Ll; R 0x1D715 0x1D715 Sm; R 0x1D716 0x1D71B Ll;
  R 0x1D71C 0x1D734 Lu; R 0x1D735 0x1D735 Sm; R 0x1D736 0x1D74E Ll; R 0x1D74F 0x1D74F Sm; R 0x1D750 0x1D755 Ll;
  R 0x1D756 0x1D76E Lu; R 0x1D76F 0x1D76F Sm; R 0x1D770 0x1D788 Ll; R 0x1D789 0x1D789 Sm; R 0x1D78A 0x1D78F Ll;
  R 0x1D790 0x1D7A8 Lu; R 0x1D7A9 0x1D7A9 Sm; R 0x1D7AA 0x1D7C2 Ll; R 0x1D7C3 0x1D7C3 Sm; R 0x1D7C4 0x1D7C9 Ll;
  R 0x1D7CA 0x1D7CA Lu; R 0x1D7CB 0x1D7CB Ll; R 0x1D7CE 0x1D7FF Nd; R 0x1D800 0x1D9FF So; R 0x1DA00 0x1DA36 Mn;
  R 0x1DA37 0x1DA3A So; R 0x1DA3B 0x1DA6C Mn; R 0x1DA6D 0x1DA74 So; R 0x1DA75 0x1DA75 Mn; R 0x1DA76 0x1DA83 So;
  R 0x1DA84 0x1DA84 Mn; R 0x1DA85 0x1DA86 So; R 0x1DA87 0x1DA8B Po; R 0x1DA9B 0x1DA9F Mn; R 0x1DAA1 0x1DAAF Mn;
  R 0x1DF00 0x1DF09 Ll; R 0x1DF0A 0x1DF0A Lo; R 0x1DF0B 0x1DF1E Ll; R 0x1DF25 0x1DF2A Ll; R 0x1E000 0x1E006 Mn;
  R 0x1E008 0x1E018 Mn; R 0x1E01B 0x1E021 Mn; R 0x1E023 0x1E024 Mn; R 0x1E026 0x1E02A Mn; R 0x1E030 0x1E06D Lm;
  R 0x1E08F 0x1E08F Mn; R 0x1E100 0x1E12C Lo; R 0x1E130 0x1E136 Mn; R 0x1E137 0x1E13D Lm; R 0x1E140 0x1E149 Nd;
  R 0x1E14E 0x1E14E Lo; R 0x1E14F 0x1E14F So; R 0x1E290 0x1E2AD Lo; R 0x1E2AE 0x1E2AE Mn; R 0x1E2C0 0x1E2EB Lo;
  R 0x1E2EC 0x1E2EF Mn; R 0x1E2F0 0x1E2F9 Nd; R 0x1E2FF 0x1E2FF Sc; R 0x1E4D0 0x1E4EA Lo; R 0x1E4EB 0x1E4EB Lm].
Definition property_cases_8 : list (entry category) := [
  R 0x1E4EC 0x1E4EF Mn; R 0x1E4F0 0x1E4F9 Nd; R 0x1E7E0 0x1E7E6 Lo; R 0x1E7E8 0x1E7EB Lo; R 0x1E7ED 0x1E7EE Lo;
  R 0x1E7F0 0x1E7FE Lo; R 0x1E800 0x1E8C4 Lo; R 0x1E8C7 0x1E8CF No; R 0x1E8D0 0x1E8D6 Mn; R 0x1E900 0x1E921 Lu;
  R 0x1E922 0x1E943 Ll; R 0x1E944 0x1E94A Mn; R 0x1E94B 0x1E94B Lm; R 0x1E950 0x1E959 Nd; R 0x1E95E 0x1E95F Po;
  R 0x1EC71 0x1ECAB No; R 0x1ECAC 0x1ECAC So; R 0x1ECAD 0x1ECAF No; R 0x1ECB0 0x1ECB0 Sc; R 0x1ECB1 0x1ECB4 No;
  R 0x1ED01 0x1ED2D No; R 0x1ED2E 0x1ED2E So; R 0x1ED2F 0x1ED3D No; R 0x1EE00 0x1EE03 Lo; R 0x1EE05 0x1EE1F Lo;
  R 0x1EE21 0x1EE22 Lo; R 0x1EE24 0x1EE24 Lo; R 0x1EE27 0x1EE27 Lo; R 0x1EE29 0x1EE32 Lo; R 0x1EE34 0x1EE37 Lo;
  R 0x1EE39 0x1EE39 Lo; R 0x1EE3B 0x1EE3B Lo; R 0x1EE42 0x1EE42 Lo; R 0x1EE47 0x1EE47 Lo; R 0x1EE49 0x1EE49 Lo;
  R 0x1EE4B 0x1EE4B Lo; R 0x1EE4D 0x1EE4F Lo; R 0x1EE51 0x1EE52 Lo; R 0x1EE54 0x1EE54 Lo; R 0x1EE57 0x1EE57 Lo;
  R 0x1EE59 0x1EE59 Lo; R 0x1EE5B 0x1EE5B Lo; R 0x1EE5D 0x1EE5D Lo; R 0x1EE5F 0x1EE5F Lo; R 0x1EE61 0x1EE62 Lo;
  R 0x1EE64 0x1EE64 Lo; R 0x1EE67 0x1EE6A Lo; R 0x1EE6C 0x1EE72 Lo; R 0x1EE74 0x1EE77 Lo; R 0x1EE79 0x1EE7C Lo;
  R 0x1EE7E 0x1EE7E Lo; R 0x1EE80 0x1EE89 Lo; R 0x1EE8B 0x1EE9B Lo; R 0x1EEA1 0x1EEA3 Lo; R 0x1EEA5 0x1EEA9 Lo;
  R 0x1EEAB 0x1EEBB Lo; R 0x1EEF0 0x1EEF1 Sm; R 0x1F000 0x1F02B So; R 0x1F030 0x1F093 So; R 0x1F0A0 0x1F0AE So;
  R 0x1F0B1 0x1F0BF So; R 0x1F0C1 0x1F0CF So; R 0x1F0D1 0x1F0F5 So; R 0x1F100 0x1F10C No; R 0x1F10D 0x1F1AD So;
  R 0x1F1E6 0x1F202 So; R 0x1F210 0x1F23B So; R 0x1F240 0x1F248 So; R 0x1F250 0x1F251 So; R 0x1F260 0x1F265 So;
  R 0x1F300 0x1F3FA So; R 0x1F3FB 0x1F3FF Sk; R 0x1F400 0x1F6D7 So; R 0x1F6DC 0x1F6EC So; R 0x1F6F0 0x1F6FC So;
  R 0x1F700 0x1F776 So; R 0x1F77B 0x1F7D9 So; R 0x1F7E0 0x1F7EB So; R 0x1F7F0 0x1F7F0 So; R 0x1F800 0x1F80B So;
  R 0x1F810 0x1F847 So; R 0x1F850 0x1F859 So; R 0x1F860 0x1F887 So; R 0x1F890 0x1F8AD So; R 0x1F8B0 0x1F8B1 So;
  R 0x1F900 0x1FA53 So; R 0x1FA60 0x1FA6D So; R 0x1FA70 0x1FA7C So; R 0x1FA80 0x1FA88 So; R 0x1FA90 0x1FABD So;
  R 0x1FABF 0x1FAC5 So; R 0x1FACE 0x1FADB So; R 0x1FAE0 0x1FAE8 So; R 0x1FAF0 0x1FAF8 So; R 0x1FB00 0x1FB92 So;
  R 0x1FB94 0x1FBCA So; R 0x1FBF0 0x1FBF9 Nd; R 0x20000 0x20000 Lo; R 0x2A6DF 0x2A6DF Lo; R 0x2A700 0x2A700 Lo;
  R 0x2B739 0x2B739 Lo; R 0x2B740 0x2B740 Lo; R 0x2B81D 0x2B81D Lo; R 0x2B820 0x2B820 Lo; R 0x2CEA1 0x2CEA1 Lo;
  R 0x2CEB0 0x2CEB0 Lo; R 0x2EBE0 0x2EBE0 Lo; R 0x2EBF0 0x2EBF0 Lo; R 0x2EE5D 0x2EE5D Lo; R 0x2F800 0x2FA1D Lo;
  R 0x30000 0x30000 Lo; R 0x3134A 0x3134A Lo; R 0x31350 0x31350 Lo; R 0x323AF 0x323AF Lo; R 0xE0001 0xE0001 Cf;
  R 0xE0020 0xE007F Cf; R 0xE0100 0xE01EF Mn; R 0xF0000 0xF0000 Co; R 0xFFFFD 0xFFFFD Co; R 0x100000 0x100000 Co;
  R 0x10FFFD 0x10FFFD Co].
(** unicode/property.hpp: the third field *)
Definition property_cases : list (entry category) := property_cases_0 ++ property_cases_1 ++ property_cases_2 ++ property_cases_3 ++ property_cases_4 ++ property_cases_5 ++ property_cases_6 ++ property_cases_7 ++ property_cases_8.

Definition digit_value_cases_0 : list (entry Z) := [
  P 0x30 0x0; P 0x31 0x1; P 0x32 0x2; P 0x33 0x3; P 0x34 0x4; P 0x35 0x5; P 0x36 0x6; P 0x37 0x7; P 0x38 0x8;
  P 0x39 0x9; P 0xB2 0x2; P 0xB3 0x3; P 0xB9 0x1; P 0x660 0x0; P 0x661 0x1; P 0x662 0x2; P 0x663 0x3; P 0x664 0x4;
  P 0x665 0x5; P 0x666 0x6; P 0x667 0x7; P 0x668 0x8; P 0x669 0x9; P 0x6F0 0x0; P 0x6F1 0x1; P 0x6F2 0x2;
  P 0x6F3 0x3; P 0x6F4 0x4; P 0x6F5 0x5; P 0x6F6 0x6; P 0x6F7 0x7; P 0x6F8 0x8; P 0x6F9 0x9; P 0x7C0 0x0;
  P 0x7C1 0x1; P 0x7C2 0x2; P 0x7C3 0x3; P 0x7C4 0x4; P 0x7C5 0x5; P 0x7C6 0x6; P 0x7C7 0x7; P 0x7C8 0x8;
  P 0x7C9 0x9; P 0x966 0x0; P 0x967 0x1; P 0x968 0x2; P 0x969 0x3; P 0x96A 0x4; P 0x96B 0x5; P 0x96C 0x6;
  P 0x96D 0x7; P 0x96E 0x8; P 0x96F 0x9; P 0x9E6 0x0; P 0x9E7 0x1; P 0x9E8 0x2; P 0x9E9 0x3; P 0x9EA 0x4;
  P 0x9EB 0x5; P 0x9EC 0x6; P 0x9ED 0x7; P 0x9EE 0x8; P 0x9EF 0x9; P 0xA66 0x0; P 0xA67 0x1; P 0xA68 0x2;
  P 0xA69 0x3; P 0xA6A 0x4; P 0xA6B 0x5; P 0xA6C 0x6; P 0xA6D 0x7; P 0xA6E 0x8; P 0xA6F 0x9; P 0xAE6 0x0;
  P 0xAE7 0x1; P 0xAE8 0x2; P 0xAE9 0x3; P 0xAEA 0x4; P 0xAEB 0x5; P 0xAEC 0x6; P 0xAED 0x7; P 0xAEE 0x8;
  P 0xAEF 0x9; P 0xB66 0x0; P 0xB67 0x1; P 0xB68 0x2; P 0xB69 0x3; P 0xB6A 0x4; P 0xB6B 0x5; P 0xB6C 0x6;
  P 0xB6D 0x7; P 0xB6E 0x8; P 0xB6F 0x9; P 0xBE6 0x0; P 0xBE7 0x1; P 0xBE8 0x2; P 0xBE9 0x3; P 0xBEA 0x4;
  P 0xBEB 0x5; P 0xBEC 0x6; P 0xBED 0x7; P 0xBEE 0x8; P 0xBEF 0x9; P 0xC66 0x0; P 0xC67 0x1; P 0xC68 0x2;
  P 0xC69 0x3; P 0xC6A 0x4; P 0xC6B 0x5; P 0xC6C 0x6; P 0xC6D 0x7; P 0xC6E 0x8; P 0xC6F 0x9; P 0xCE6 0x0;
  P 0xCE7 0x1; P 0xCE8 0x2; P 0xCE9 0x3; P 0xCEA 0x4; P 0xCEB 0x5; P 0xCEC 0x6; P 0xCED 0x7; P 0xCEE 0x8;
  P 0xCEF 0x9; P 0xD66 0x0; P 0xD67 0x1; P 0xD68 0x2; P 0xD69 0x3; P 0xD6A 0x4; P 0xD6B 0x5; P 0xD6C 0x6;
  P 0xD6D 0x7; P 0xD6E 0x8; P 0xD6F 0x9; P 0xDE6 0x0; P 0xDE7 0x1; P 0xDE8 0x2; P 0xDE9 0x3; P 0xDEA 0x4;
  P 0xDEB 0x5; P 0xDEC 0x6; P 0xDED 0x7; P 0xDEE 0x8; P 0xDEF 0x9; P 0xE50 0x0; P 0xE51 0x1; P 0xE52 0x2;
  P 0xE53 0x3; P 0xE54 0x4; P 0xE55 0x5; P 0xE56 0x6; P 0xE57 0x7; P 0xE58 0x8; P 0xE59 0x9; P 0xED0 0x0;
  P 0xED1 0x1; P 0xED2 0x2; P 0xED3 0x3; P 0xED4 0x4; P 0xED5 0x5; P 0xED6 0x6; P 0xED7 0x7; P 0xED8 0x8;
  P 0xED9 0x9; P 0xF20 0x0; P 0xF21 0x1; P 0xF22 0x2; P 0xF23 0x3; P 0xF24 0x4; P 0xF25 0x5; P 0xF26 0x6;
  P 0xF27 0x7; P 0xF28 0x8; P 0xF29 0x9; P 0x1040 0x0; P 0x1041 0x1; P 0x1042 0x2; P 0x1043 0x3; P 0x1044 0x4;
  P 0x1045 0x5; P 0x1046 0x6; P 0x1047 0x7; P 0x1048 0x8; P 0x1049 0x9; P 0x1090 0x0; P 0x1091 0x1; P 0x1092 0x2;
  P 0x1093 0x3; P 0x1094 0x4; P 0x1095 0x5; P 0x1096 0x6; P 0x1097 0x7; P 0x1098 0x8; P 0x1099 0x9; P 0x1369 0x1;
  P 0x136A 0x2; P 0x136B 0x3; P 0x136C 0x4; P 0x136D 0x5; P 0x136E 0x6; P 0x136F 0x7; P 0x1370 0x8; P 0x1371 0x9;
  P 0x17E0 0x0; P 0x17E1 0x1; P 0x17E2 0x2; P 0x17E3 0x3; P 0x17E4 0x4; P 0x17E5 0x5; P 0x17E6 0x6; P 0x17E7 0x7;
  P 0x17E8 0x8; P 0x17E9 0x9; P 0x1810 0x0; P 0x1811 0x1; P 0x1812 0x2; P 0x1813 0x3; P 0x1814 0x4; P 0x1815 0x5;
  P 0x1816 0x6; P 0x1817 0x7; P 0x1818 0x8; P 0x1819 0x9; P 0x1946 0x0; P 0x1947 0x1; P 0x1948 0x2; P 0x1949 0x3;
  P 0x194A 0x4; P 0x194B 0x5; P 0x194C 0x6; P 0x194D 0x7; P 0x194E 0x8; P 0x194F 0x9; P 0x19D0 0x0; P 0x19D1 0x1;
  P 0x19D2 0x2; P 0x19D3 0x3; P 0x19D4 0x4; P 0x19D5 0x5; P 0x19D6 0x6; P 0x19D7 0x7; P 0x19D8 0x8; P 0x19D9 0x9;
  P 0x19DA 0x1; P 0x1A80 0x0; P 0x1A81 0x1; P 0x1A82 0x2; P 0x1A83 0x3; P 0x1A84 0x4; P 0x1A85 0x5; P 0x1A86 0x6;
  P 0x1A87 0x7; P 0x1A88 0x8; P 0x1A89 0x9; P 0x1A90 0x0; P 0x1A91 0x1; P 0x1A92 0x2; P 0x1A93 0x3; P 0x1A94 0x4;
  P 0x1A95 0x5; P 0x1A96 0x6; P 0x1A97 0x7; P 0x1A98 0x8; P 0x1A99 0x9; P 0x1B50 0x0; P 0x1B51 0x1; P 0x1B52 0x2;
  P 0x1B53 0x3; P 0x1B54 0x4; P 0x1B55 0x5; P 0x1B56 0x6; P 0x1B57 0x7; P 0x1B58 0x8; P 0x1B59 0x9; P 0x1BB0 0x0;
  P 0x1BB1 0x1; P 0x1BB2 0x2; P 0x1BB3 0x3; P 0x1BB4 0x4; P 0x1BB5 0x5; P 0x1BB6 0x6; P 0x1BB7 0x7; P 0x1BB8 0x8;
  P 0x1BB9 0x9; P 0x1C40 0x0; P 0x1C41 0x1; P 0x1C42 0x2; P 0x1C43 0x3; P 0x1C44 0x4; P 0x1C45 0x5; P 0x1C46 0x6;
  P 0x1C47 0x7; P 0x1C48 0x8; P 0x1C49 0x9; P 0x1C50 0x0; P 0x1C51 0x1; P 0x1C52 0x2; P 0x1C53 0x3; P 0x1C54 0x4;
  P 0x1C55 0x5; P 0x1C56 0x6; P 0x1C57 0x7; P 0x1C58 0x8; P 0x1C59 0x9; P 0x2070 0x0; P 0x2074 0x4; P 0x2075 0x5;
  P 0x2076 0x6; P 0x2077 0x7; P 0x2078 0x8; P 0x2079 0x9; P 0x2080 0x0; P 0x2081 0x1; P 0x2082 0x2; P 0x2083 0x3;
  P 0x2084 0x4; P 0x2085 0x5; P 0x2086 0x6; P 0x2087 0x7; P 0x2088 0x8; P 0x2089 0x9; P 0x2460 0x1; P 0x2461 0x2;
  P 0x2462 0x3; P 0x2463 0x4; P 0x2464 0x5; P 0x2465 0x6; P 0x2466 0x7; P 0x2467 0x8; P 0x2468 0x9; P 0x2474 0x1;
  P 0x2475 0x2; P 0x2476 0x3; P 0x2477 0x4; P 0x2478 0x5; P 0x2479 0x6; P 0x247A 0x7; P 0x247B 0x8; P 0x247C 0x9;
  P 0x2488 0x1; P 0x2489 0x2; P 0x248A 0x3; P 0x248B 0x4; P 0x248C 0x5; P 0x248D 0x6; P 0x248E 0x7; P 0x248F 0x8;
  P 0x2490 0x9; P 0x24EA 0x0; P 0x24F5 0x1; P 0x24F6 0x2; P 0x24F7 0x3; P 0x24F8 0x4; P 0x24F9 0x5; P 0x24FA 0x6;
  P 0x24FB 0x7; P 0x24FC 0x8; P 0x24FD 0x9; P 0x24FF 0x0; P 0x2776 0x1; P 0x2777 0x2; P 0x2778 0x3; P 0x2779 0x4;
  P 0x277A 0x5; P 0x277B 0x6; P 0x277C 0x7; P 0x277D 0x8; P 0x277E 0x9; P 0x2780 0x1; P 0x2781 0x2; P 0x2782 0x3;
  P 0x2783 0x4; P 0x2784 0x5; P 0x2785 0x6; P 0x2786 0x7; P 0x2787 0x8; P 0x2788 0x9; P 0x278A 0x1; P 0x278B 0x2;
  P 0x278C 0x3; P 0x278D 0x4; P 0x278E 0x5; P 0x278F 0x6; P 0x2790 0x7; P 0x2791 0x8; P 0x2792 0x9; P 0xA620 0x0;
  P 0xA621 0x1; P 0xA622 0x2; P 0xA623 0x3; P 0xA624 0x4; P 0xA625 0x5; P 0xA626 0x6; P 0xA627 0x7; P 0xA628 0x8;
  P 0xA629 0x9; P 0xA8D0 0x0; P 0xA8D1 0x1; P 0xA8D2 0x2; P 0xA8D3 0x3; P 0xA8D4 0x4].
Definition digit_value_cases_1 : list (entry Z) := [
  P 0xA8D5 0x5; P 0xA8D6 0x6; P 0xA8D7 0x7; P 0xA8D8 0x8; P 0xA8D9 0x9; P 0xA900 0x0; P 0xA901 0x1; P 0xA902 0x2;
  P 0xA903 0x3; P 0xA904 0x4; P 0xA905 0x5; P 0xA906 0x6; P 0xA907 0x7; P 0xA908 0x8; P 0xA909 0x9; P 0xA9D0 0x0;
  P 0xA9D1 0x1; P 0xA9D2 0x2; P 0xA9D3 0x3; P 0xA9D4 0x4; P 0xA9D5 0x5; P 0xA9D6 0x6; P 0xA9D7 0x7; P 0xA9D8 0x8;
  P 0xA9D9 0x9; P 0xA9F0 0x0; P 0xA9F1 0x1; P 0xA9F2 0x2; P 0xA9F3 0x3; P 0xA9F4 0x4; P 0xA9F5 0x5; P 0xA9F6 0x6;
  P 0xA9F7 0x7; P 0xA9F8 0x8; P 0xA9F9 0x9; P 0xAA50 0x0; P 0xAA51 0x1; P 0xAA52 0x2; P 0xAA53 0x3; P 0xAA54 0x4;
  P 0xAA55 0x5; P 0xAA56 0x6; P 0xAA57 0x7; P 0xAA58 0x8; P 0xAA59 0x9; P 0xABF0 0x0; P 0xABF1 0x1; P 0xABF2 0x2;
  P 0xABF3 0x3; P 0xABF4 0x4; P 0xABF5 0x5; P 0xABF6 0x6; P 0xABF7 0x7; P 0xABF8 0x8; P 0xABF9 0x9; P 0xFF10 0x0;
  P 0xFF11 0x1; P 0xFF12 0x2; P 0xFF13 0x3; P 0xFF14 0x4; P 0xFF15 0x5; P 0xFF16 0x6; P 0xFF17 0x7; P 0xFF18 0x8;
  P 0xFF19 0x9; P 0x104A0 0x0; P 0x104A1 0x1; P 0x104A2 0x2; P 0x104A3 0x3; P 0x104A4 0x4; P 0x104A5 0x5;
  P 0x104A6 0x6; P 0x104A7 0x7; P 0x104A8 0x8; P 0x104A9 0x9; P 0x10A40 0x1; P 0x10A41 0x2; P 0x10A42 0x3;
  P 0x10A43 0x4; P 0x10D30 0x0; P 0x10D31 0x1; P 0x10D32 0x2; P 0x10D33 0x3; P 0x10D34 0x4; P 0x10D35 0x5;
  P 0x10D36 0x6; P 0x10D37 0x7; P 0x10D38 0x8; P 0x10D39 0x9; P 0x10E60 0x1; P 0x10E61 0x2; P 0x10E62 0x3;
  P 0x10E63 0x4; P 0x10E64 0x5; P 0x10E65 0x6; P 0x10E66 0x7; P 0x10E67 0x8; P 0x10E68 0x9; P 0x11052 0x1;
  P 0x11053 0x2; P 0x11054 0x3; P 0x11055 0x4; P 0x11056 0x5; P 0x11057 0x6; P 0x11058 0x7; P 0x11059 0x8;
  P 0x1105A 0x9; P 0x11066 0x0; P 0x11067 0x1; P 0x11068 0x2; P 0x11069 0x3; P 0x1106A 0x4; P 0x1106B 0x5;
  P 0x1106C 0x6; P 0x1106D 0x7; P 0x1106E 0x8; P 0x1106F 0x9; P 0x110F0 0x0; P 0x110F1 0x1; P 0x110F2 0x2;
  P 0x110F3 0x3; P 0x110F4 0x4; P 0x110F5 0x5; P 0x110F6 0x6; P 0x110F7 0x7; P 0x110F8 0x8; P 0x110F9 0x9;
  P 0x11136 0x0; P 0x11137 0x1; P 0x11138 0x2; P 0x11139 0x3; P 0x1113A 0x4; P 0x1113B 0x5; P 0x1113C 0x6;
  P 0x1113D 0x7; P 0x1113E 0x8; P 0x1113F 0x9; P 0x111D0 0x0; P 0x111D1 0x1; P 0x111D2 0x2; P 0x111D3 0x3;
  P 0x111D4 0x4; P 0x111D5 0x5; P 0x111D6 0x6; P 0x111D7 0x7; P 0x111D8 0x8; P 0x111D9 0x9; P 0x112F0 0x0;
  P 0x112F1 0x1; P 0x112F2 0x2; P 0x112F3 0x3; P 0x112F4 0x4; P 0x112F5 0x5; P 0x112F6 0x6; P 0x112F7 0x7;
  P 0x112F8 0x8; P 0x112F9 0x9; P 0x11450 0x0; P 0x11451 0x1; P 0x11452 0x2; P 0x11453 0x3; P 0x11454 0x4;
  P 0x11455 0x5; P 0x11456 0x6; P 0x11457 0x7; P 0x11458 0x8; P 0x11459 0x9; P 0x114D0 0x0; P 0x114D1 0x1;
  P 0x114D2 0x2; P 0x114D3 0x3; P 0x114D4 0x4; P 0x114D5 0x5; P 0x114D6 0x6; P 0x114D7 0x7; P 0x114D8 0x8;
  P 0x114D9 0x9; P 0x11650 0x0; P 0x11651 0x1; P 0x11652 0x2; P 0x11653 0x3; P 0x11654 0x4; P 0x11655 0x5;
  P 0x11656 0x6; P 0x11657 0x7; P 0x11658 0x8; P 0x11659 0x9; P 0x116C0 0x0; P 0x116C1 0x1; P 0x116C2 0x2;
  P 0x116C3 0x3; P 0x116C4 0x4; P 0x116C5 0x5; P 0x116C6 0x6; P 0x116C7 0x7; P 0x116C8 0x8; P 0x116C9 0x9;
  P 0x11730 0x0; P 0x11731 0x1; P 0x11732 0x2; P 0x11733 0x3; P 0x11734 0x4; P 0x11735 0x5; P 0x11736 0x6;
  P 0x11737 0x7; P 0x11738 0x8; P 0x11739 0x9; P 0x118E0 0x0; P 0x118E1 0x1; P 0x118E2 0x2; P 0x118E3 0x3;
  P 0x118E4 0x4; P 0x118E5 0x5; P 0x118E6 0x6; P 0x118E7 0x7; P 0x118E8 0x8; P 0x118E9 0x9; P 0x11950 0x0;
  P 0x11951 0x1; P 0x11952 0x2; P 0x11953 0x3; P 0x11954 0x4; P 0x11955 0x5; P 0x11956 0x6; P 0x11957 0x7;
  P 0x11958 0x8; P 0x11959 0x9; P 0x11C50 0x0; P 0x11C51 0x1; P 0x11C52 0x2; P 0x11C53 0x3; P 0x11C54 0x4;
  P 0x11C55 0x5; P 0x11C56 0x6; P 0x11C57 0x7; P 0x11C58 0x8; P 0x11C59 0x9; P 0x11D50 0x0; P 0x11D51 0x1;
  P 0x11D52 0x2; P 0x11D53 0x3; P 0x11D54 0x4; P 0x11D55 0x5; P 0x11D56 0x6; P 0x11D57 0x7; P 0x11D58 0x8;
  P 0x11D59 0x9; P 0x11DA0 0x0; P 0x11DA1 0x1; P 0x11DA2 0x2; P 0x11DA3 0x3; P 0x11DA4 0x4; P 0x11DA5 0x5;
  P 0x11DA6 0x6; P 0x11DA7 0x7; P 0x11DA8 0x8; P 0x11DA9 0x9; P 0x11F50 0x0; P 0x11F51 0x1; P 0x11F52 0x2;
  P 0x11F53 0x3; P 0x11F54 0x4; P 0x11F55 0x5; P 0x11F56 0x6; P 0x11F57 0x7; P 0x11F58 0x8; P 0x11F59 0x9;
  P 0x16A60 0x0; P 0x16A61 0x1; P 0x16A62 0x2; P 0x16A63 0x3; P 0x16A64 0x4; P 0x16A65 0x5; P 0x16A66 0x6;
  P 0x16A67 0x7; P 0x16A68 0x8; P 0x16A69 0x9; P 0x16AC0 0x0; P 0x16AC1 0x1; P 0x16AC2 0x2; P 0x16AC3 0x3;
  P 0x16AC4 0x4; P 0x16AC5 0x5; P 0x16AC6 0x6; P 0x16AC7 0x7; P 0x16AC8 0x8; P 0x16AC9 0x9; P 0x16B50 0x0;
  P 0x16B51 0x1; P 0x16B52 0x2; P 0x16B53 0x3; P 0x16B54 0x4; P 0x16B55 0x5; P 0x16B56 0x6; P 0x16B57 0x7;
  P 0x16B58 0x8; P 0x16B59 0x9; P 0x1D7CE 0x0; P 0x1D7CF 0x1; P 0x1D7D0 0x2; P 0x1D7D1 0x3; P 0x1D7D2 0x4;
  P 0x1D7D3 0x5; P 0x1D7D4 0x6; P 0x1D7D5 0x7; P 0x1D7D6 0x8; P 0x1D7D7 0x9; P 0x1D7D8 0x0; P 0x1D7D9 0x1;
  P 0x1D7DA 0x2; P 0x1D7DB 0x3; P 0x1D7DC 0x4; P 0x1D7DD 0x5; P 0x1D7DE 0x6; P 0x1D7DF 0x7; P 0x1D7E0 0x8;
  P 0x1D7E1 0x9; P 0x1D7E2 0x0; P 0x1D7E3 0x1; P 0x1D7E4 0x2; P 0x1D7E5 0x3; P 0x1D7E6 0x4; P 0x1D7E7 0x5;
  P 0x1D7E8 0x6; P 0x1D7E9 0x7; P 0x1D7EA 0x8; P 0x1D7EB 0x9; P 0x1D7EC 0x0; P 0x1D7ED 0x1; P 0x1D7EE 0x2;
  P 0x1D7EF 0x3; P 0x1D7F0 0x4; P 0x1D7F1 0x5; P 0x1D7F2 0x6; P 0x1D7F3 0x7; P 0x1D7F4 0x8; P 0x1D7F5 0x9;
  P 0x1D7F6 0x0; P 0x1D7F7 0x1; P 0x1D7F8 0x2; P 0x1D7F9 0x3; P 0x1D7FA 0x4; P 0x1D7FB 0x5; P 0x1D7FC 0x6;
  P 0x1D7FD 0x7; P 0x1D7FE 0x8; P 0x1D7FF 0x9; P 0x1E140 0x0; P 0x1E141 0x1; P 0x1E142 0x2; P 0x1E143 0x3;
  P 0x1E144 0x4; P 0x1E145 0x5; P 0x1E146 0x6; P 0x1E147 0x7; P 0x1E148 0x8; P 0x1E149 0x9; P 0x1E2F0 0x0;
  P 0x1E2F1 0x1; P 0x1E2F2 0x2; P 0x1E2F3 0x3; P 0x1E2F4 0x4; P 0x1E2F5 0x5; P 0x1E2F6 0x6; P 0x1E2F7 0x7;
  P 0x1E2F8 0x8; P 0x1E2F9 0x9; P 0x1E4F0 0x0; P 0x1E4F1 0x1; P 0x1E4F2 0x2; P 0x1E4F3 0x3; P 0x1E4F4 0x4;
  P 0x1E4F5 0x5; P 0x1E4F6 0x6; P 0x1E4F7 0x7; P 0x1E4F8 0x8; P 0x1E4F9 0x9; P 0x1E950 0x0; P 0x1E951 0x1;
  P 0x1E952 0x2; P 0x1E953 0x3; P 0x1E954 0x4; P 0x1E955 0x5; P 0x1E956 0x6; P 0x1E957 0x7; P 0x1E958 0x8;
  P 0x1E959 0x9; P 0x1F100 0x0; P 0x1F101 0x0; P 0x1F102 0x1; P 0x1F103 0x2; P 0x1F104 0x3; P 0x1F105 0x4;
  P 0x1F106 0x5; P 0x1F107 0x6; P 0x1F108 0x7; P 0x1F109 0x8; P 0x1F10A 0x9; P 0x1FBF0 0x0; P 0x1FBF1 0x1].
Definition digit_value_cases_2 : list (entry Z) := [
  P 0x1FBF2 0x2; P 0x1FBF3 0x3; P 0x1FBF4 0x4; P 0x1FBF5 0x5; P 0x1FBF6 0x6; P 0x1FBF7 0x7; P 0x1FBF8 0x8;
  P 0x1FBF9 0x9].
(** unicode/digit_value.hpp: the eighth field where it is not empty *)
Definition digit_value_cases : list (entry Z) := digit_value_cases_0 ++ digit_value_cases_1 ++ digit_value_cases_2.

Definition upcase_cases_0 : list (entry Z) := [
  P 0x61 0x41; P 0x62 0x42; P 0x63 0x43; P 0x64 0x44; P 0x65 0x45; P 0x66 0x46; P 0x67 0x47; P 0x68 0x48;
  P 0x69 0x49; P 0x6A 0x4A; P 0x6B 0x4B; P 0x6C 0x4C; P 0x6D 0x4D; P 0x6E 0x4E; P 0x6F 0x4F; P 0x70 0x50;
  P 0x71 0x51; P 0x72 0x52; P 0x73 0x53; P 0x74 0x54; P 0x75 0x55; P 0x76 0x56; P 0x77 0x57; P 0x78 0x58;
  P 0x79 0x59; P 0x7A 0x5A; P 0xB5 0x39C; P 0xE0 0xC0; P 0xE1 0xC1; P 0xE2 0xC2; P 0xE3 0xC3; P 0xE4 0xC4;
  P 0xE5 0xC5; P 0xE6 0xC6; P 0xE7 0xC7; P 0xE8 0xC8; P 0xE9 0xC9; P 0xEA 0xCA; P 0xEB 0xCB; P 0xEC 0xCC;
  P 0xED 0xCD; P 0xEE 0xCE; P 0xEF 0xCF; P 0xF0 0xD0; P 0xF1 0xD1; P 0xF2 0xD2; P 0xF3 0xD3; P 0xF4 0xD4;
  P 0xF5 0xD5; P 0xF6 0xD6; P 0xF8 0xD8; P 0xF9 0xD9; P 0xFA 0xDA; P 0xFB 0xDB; P 0xFC 0xDC; P 0xFD 0xDD;
  P 0xFE 0xDE; P 0xFF 0x178; P 0x101 0x100; P 0x103 0x102; P 0x105 0x104; P 0x107 0x106; P 0x109 0x108;
  P 0x10B 0x10A; P 0x10D 0x10C; P 0x10F 0x10E; P 0x111 0x110; P 0x113 0x112; P 0x115 0x114; P 0x117 0x116;
  P 0x119 0x118; P 0x11B 0x11A; P 0x11D 0x11C; P 0x11F 0x11E; P 0x121 0x120; P 0x123 0x122; P 0x125 0x124;
  P 0x127 0x126; P 0x129 0x128; P 0x12B 0x12A; P 0x12D 0x12C; P 0x12F 0x12E; P 0x131 0x49; P 0x133 0x132;
  P 0x135 0x134; P 0x137 0x136; P 0x13A 0x139; P 0x13C 0x13B; P 0x13E 0x13D; P 0x140 0x13F; P 0x142 0x141;
  P 0x144 0x143; P 0x146 0x145; P 0x148 0x147; P 0x14B 0x14A; P 0x14D 0x14C; P 0x14F 0x14E; P 0x151 0x150;
  P 0x153 0x152; P 0x155 0x154; P 0x157 0x156; P 0x159 0x158; P 0x15B 0x15A; P 0x15D 0x15C; P 0x15F 0x15E;
  P 0x161 0x160; P 0x163 0x162; P 0x165 0x164; P 0x167 0x166; P 0x169 0x168; P 0x16B 0x16A; P 0x16D 0x16C;
  P 0x16F 0x16E; P 0x171 0x170; P 0x173 0x172; P 0x175 0x174; P 0x177 0x176; P 0x17A 0x179; P 0x17C 0x17B;
  P 0x17E 0x17D; P 0x17F 0x53; P 0x180 0x243; P 0x183 0x182; P 0x185 0x184; P 0x188 0x187; P 0x18C 0x18B;
  P 0x192 0x191; P 0x195 0x1F6; P 0x199 0x198; P 0x19A 0x23D; P 0x19E 0x220; P 0x1A1 0x1A0; P 0x1A3 0x1A2;
  P 0x1A5 0x1A4; P 0x1A8 0x1A7; P 0x1AD 0x1AC; P 0x1B0 0x1AF; P 0x1B4 0x1B3; P 0x1B6 0x1B5; P 0x1B9 0x1B8;
  P 0x1BD 0x1BC; P 0x1BF 0x1F7; P 0x1C5 0x1C4; P 0x1C6 0x1C4; P 0x1C8 0x1C7; P 0x1C9 0x1C7; P 0x1CB 0x1CA;
  P 0x1CC 0x1CA; P 0x1CE 0x1CD; P 0x1D0 0x1CF; P 0x1D2 0x1D1; P 0x1D4 0x1D3; P 0x1D6 0x1D5; P 0x1D8 0x1D7;
  P 0x1DA 0x1D9; P 0x1DC 0x1DB; P 0x1DD 0x18E; P 0x1DF 0x1DE; P 0x1E1 0x1E0; P 0x1E3 0x1E2; P 0x1E5 0x1E4;
  P 0x1E7 0x1E6; P 0x1E9 0x1E8; P 0x1EB 0x1EA; P 0x1ED 0x1EC; P 0x1EF 0x1EE; P 0x1F2 0x1F1; P 0x1F3 0x1F1;
  P 0x1F5 0x1F4; P 0x1F9 0x1F8; P 0x1FB 0x1FA; P 0x1FD 0x1FC; P 0x1FF 0x1FE; P 0x201 0x200; P 0x203 0x202;
  P 0x205 0x204; P 0x207 0x206; P 0x209 0x208; P 0x20B 0x20A; P 0x20D 0x20C; P 0x20F 0x20E; P 0x211 0x210;
  P 0x213 0x212; P 0x215 0x214; P 0x217 0x216; P 0x219 0x218; P 0x21B 0x21A; P 0x21D 0x21C; P 0x21F 0x21E;
  P 0x223 0x222; P 0x225 0x224; P 0x227 0x226; P 0x229 0x228; P 0x22B 0x22A; P 0x22D 0x22C; P 0x22F 0x22E;
  P 0x231 0x230; P 0x233 0x232; P 0x23C 0x23B; P 0x23F 0x2C7E; P 0x240 0x2C7F; P 0x242 0x241; P 0x247 0x246;
  P 0x249 0x248; P 0x24B 0x24A; P 0x24D 0x24C; P 0x24F 0x24E; P 0x250 0x2C6F; P 0x251 0x2C6D; P 0x252 0x2C70;
  P 0x253 0x181; P 0x254 0x186; P 0x256 0x189; P 0x257 0x18A; P 0x259 0x18F; P 0x25B 0x190; P 0x25C 0xA7AB;
  P 0x260 0x193; P 0x261 0xA7AC; P 0x263 0x194; P 0x265 0xA78D; P 0x266 0xA7AA; P 0x268 0x197; P 0x269 0x196;
  P 0x26A 0xA7AE; P 0x26B 0x2C62; P 0x26C 0xA7AD; P 0x26F 0x19C; P 0x271 0x2C6E; P 0x272 0x19D; P 0x275 0x19F;
  P 0x27D 0x2C64; P 0x280 0x1A6; P 0x282 0xA7C5; P 0x283 0x1A9; P 0x287 0xA7B1; P 0x288 0x1AE; P 0x289 0x244;
  P 0x28A 0x1B1; P 0x28B 0x1B2; P 0x28C 0x245; P 0x292 0x1B7; P 0x29D 0xA7B2; P 0x29E 0xA7B0; P 0x345 0x399;
  P 0x371 0x370; P 0x373 0x372; P 0x377 0x376; P 0x37B 0x3FD; P 0x37C 0x3FE; P 0x37D 0x3FF; P 0x3AC 0x386;
  P 0x3AD 0x388; P 0x3AE 0x389; P 0x3AF 0x38A; P 0x3B1 0x391; P 0x3B2 0x392; P 0x3B3 0x393; P 0x3B4 0x394;
  P 0x3B5 0x395; P 0x3B6 0x396; P 0x3B7 0x397; P 0x3B8 0x398; P 0x3B9 0x399; P 0x3BA 0x39A; P 0x3BB 0x39B;
  P 0x3BC 0x39C; P 0x3BD 0x39D; P 0x3BE 0x39E; P 0x3BF 0x39F; P 0x3C0 0x3A0; P 0x3C1 0x3A1; P 0x3C2 0x3A3;
  P 0x3C3 0x3A3; P 0x3C4 0x3A4; P 0x3C5 0x3A5; P 0x3C6 0x3A6; P 0x3C7 0x3A7; P 0x3C8 0x3A8; P 0x3C9 0x3A9;
  P 0x3CA 0x3AA; P 0x3CB 0x3AB; P 0x3CC 0x38C; P 0x3CD 0x38E; P 0x3CE 0x38F; P 0x3D0 0x392; P 0x3D1 0x398;
  P 0x3D5 0x3A6; P 0x3D6 0x3A0; P 0x3D7 0x3CF; P 0x3D9 0x3D8; P 0x3DB 0x3DA; P 0x3DD 0x3DC; P 0x3DF 0x3DE;
  P 0x3E1 0x3E0; P 0x3E3 0x3E2; P 0x3E5 0x3E4; P 0x3E7 0x3E6; P 0x3E9 0x3E8; P 0x3EB 0x3EA; P 0x3ED 0x3EC;
  P 0x3EF 0x3EE; P 0x3F0 0x39A; P 0x3F1 0x3A1; P 0x3F2 0x3F9; P 0x3F3 0x37F; P 0x3F5 0x395; P 0x3F8 0x3F7;
  P 0x3FB 0x3FA; P 0x430 0x410; P 0x431 0x411; P 0x432 0x412; P 0x433 0x413; P 0x434 0x414; P 0x435 0x415;
  P 0x436 0x416; P 0x437 0x417; P 0x438 0x418; P 0x439 0x419; P 0x43A 0x41A; P 0x43B 0x41B; P 0x43C 0x41C;
  P 0x43D 0x41D; P 0x43E 0x41E; P 0x43F 0x41F; P 0x440 0x420; P 0x441 0x421; P 0x442 0x422; P 0x443 0x423;
  P 0x444 0x424; P 0x445 0x425; P 0x446 0x426; P 0x447 0x427; P 0x448 0x428; P 0x449 0x429; P 0x44A 0x42A;
  P 0x44B 0x42B; P 0x44C 0x42C; P 0x44D 0x42D; P 0x44E 0x42E; P 0x44F 0x42F; P 0x450 0x400; P 0x451 0x401;
  P 0x452 0x402; P 0x453 0x403; P 0x454 0x404; P 0x455 0x405; P 0x456 0x406; P 0x457 0x407; P 0x458 0x408;
  P 0x459 0x409; P 0x45A 0x40A; P 0x45B 0x40B; P 0x45C 0x40C; P 0x45D 0x40D; P 0x45E 0x40E; P 0x45F 0x40F;
  P 0x461 0x460; P 0x463 0x462; P 0x465 0x464; P 0x467 0x466; P 0x469 0x468; P 0x46B 0x46A; P 0x46D 0x46C;
  P 0x46F 0x46E; P 0x471 0x470; P 0x473 0x472; P 0x475 0x474; P 0x477 0x476; P 0x479 0x478; P 0x47B 0x47A;
  P 0x47D 0x47C; P 0x47F 0x47E; P 0x481 0x480; P 0x48B 0x48A; P 0x48D 0x48C; P 0x48F 0x48E; P 0x491 0x490;
  P 0x493 0x492; P 0x495 0x494; P 0x497 0x496; P 0x499 0x498; P 0x49B 0x49A; P 0x49D 0x49C; P 0x49F 0x49E;
  P 0x4A1 0x4A0; P 0x4A3 0x4A2; P 0x4A5 0x4A4; P 0x4A7 0x4A6; P 0x4A9 0x4A8; P 0x4AB 0x4AA; P 0x4AD 0x4AC;
  P 0x4AF 0x4AE; P 0x4B1 0x4B0; P 0x4B3 0x4B2; P 0x4B5 0x4B4; P 0x4B7 0x4B6; P 0x4B9 0x4B8; P 0x4BB 0x4BA;
  P 0x4BD 0x4BC].
Definition upcase_cases_1 : list (entry Z) := [
  P 0x4BF 0x4BE; P 0x4C2 0x4C1; P 0x4C4 0x4C3; P 0x4C6 0x4C5; P 0x4C8 0x4C7; P 0x4CA 0x4C9; P 0x4CC 0x4CB;
  P 0x4CE 0x4CD; P 0x4CF 0x4C0; P 0x4D1 0x4D0; P 0x4D3 0x4D2; P 0x4D5 0x4D4; P 0x4D7 0x4D6; P 0x4D9 0x4D8;
  P 0x4DB 0x4DA; P 0x4DD 0x4DC; P 0x4DF 0x4DE; P 0x4E1 0x4E0; P 0x4E3 0x4E2; P 0x4E5 0x4E4; P 0x4E7 0x4E6;
  P 0x4E9 0x4E8; P 0x4EB 0x4EA; P 0x4ED 0x4EC; P 0x4EF 0x4EE; P 0x4F1 0x4F0; P 0x4F3 0x4F2; P 0x4F5 0x4F4;
  P 0x4F7 0x4F6; P 0x4F9 0x4F8; P 0x4FB 0x4FA; P 0x4FD 0x4FC; P 0x4FF 0x4FE; P 0x501 0x500; P 0x503 0x502;
  P 0x505 0x504; P 0x507 0x506; P 0x509 0x508; P 0x50B 0x50A; P 0x50D 0x50C; P 0x50F 0x50E; P 0x511 0x510;
  P 0x513 0x512; P 0x515 0x514; P 0x517 0x516; P 0x519 0x518; P 0x51B 0x51A; P 0x51D 0x51C; P 0x51F 0x51E;
  P 0x521 0x520; P 0x523 0x522; P 0x525 0x524; P 0x527 0x526; P 0x529 0x528; P 0x52B 0x52A; P 0x52D 0x52C;
  P 0x52F 0x52E; P 0x561 0x531; P 0x562 0x532; P 0x563 0x533; P 0x564 0x534; P 0x565 0x535; P 0x566 0x536;
  P 0x567 0x537; P 0x568 0x538; P 0x569 0x539; P 0x56A 0x53A; P 0x56B 0x53B; P 0x56C 0x53C; P 0x56D 0x53D;
  P 0x56E 0x53E; P 0x56F 0x53F; P 0x570 0x540; P 0x571 0x541; P 0x572 0x542; P 0x573 0x543; P 0x574 0x544;
  P 0x575 0x545; P 0x576 0x546; P 0x577 0x547; P 0x578 0x548; P 0x579 0x549; P 0x57A 0x54A; P 0x57B 0x54B;
  P 0x57C 0x54C; P 0x57D 0x54D; P 0x57E 0x54E; P 0x57F 0x54F; P 0x580 0x550; P 0x581 0x551; P 0x582 0x552;
  P 0x583 0x553; P 0x584 0x554; P 0x585 0x555; P 0x586 0x556; P 0x10D0 0x1C90; P 0x10D1 0x1C91; P 0x10D2 0x1C92;
  P 0x10D3 0x1C93; P 0x10D4 0x1C94; P 0x10D5 0x1C95; P 0x10D6 0x1C96; P 0x10D7 0x1C97; P 0x10D8 0x1C98;
  P 0x10D9 0x1C99; P 0x10DA 0x1C9A; P 0x10DB 0x1C9B; P 0x10DC 0x1C9C; P 0x10DD 0x1C9D; P 0x10DE 0x1C9E;
  P 0x10DF 0x1C9F; P 0x10E0 0x1CA0; P 0x10E1 0x1CA1; P 0x10E2 0x1CA2; P 0x10E3 0x1CA3; P 0x10E4 0x1CA4;
  P 0x10E5 0x1CA5; P 0x10E6 0x1CA6; P 0x10E7 0x1CA7; P 0x10E8 0x1CA8; P 0x10E9 0x1CA9; P 0x10EA 0x1CAA;
  P 0x10EB 0x1CAB; P 0x10EC 0x1CAC; P 0x10ED 0x1CAD; P 0x10EE 0x1CAE; P 0x10EF 0x1CAF; P 0x10F0 0x1CB0;
  P 0x10F1 0x1CB1; P 0x10F2 0x1CB2; P 0x10F3 0x1CB3; P 0x10F4 0x1CB4; P 0x10F5 0x1CB5; P 0x10F6 0x1CB6;
  P 0x10F7 0x1CB7; P 0x10F8 0x1CB8; P 0x10F9 0x1CB9; P 0x10FA 0x1CBA; P 0x10FD 0x1CBD; P 0x10FE 0x1CBE;
  P 0x10FF 0x1CBF; P 0x13F8 0x13F0; P 0x13F9 0x13F1; P 0x13FA 0x13F2; P 0x13FB 0x13F3; P 0x13FC 0x13F4;
  P 0x13FD 0x13F5; P 0x1C80 0x412; P 0x1C81 0x414; P 0x1C82 0x41E; P 0x1C83 0x421; P 0x1C84 0x422; P 0x1C85 0x422;
  P 0x1C86 0x42A; P 0x1C87 0x462; P 0x1C88 0xA64A; P 0x1D79 0xA77D; P 0x1D7D 0x2C63; P 0x1D8E 0xA7C6;
  P 0x1E01 0x1E00; P 0x1E03 0x1E02; P 0x1E05 0x1E04; P 0x1E07 0x1E06; P 0x1E09 0x1E08; P 0x1E0B 0x1E0A;
  P 0x1E0D 0x1E0C; P 0x1E0F 0x1E0E; P 0x1E11 0x1E10; P 0x1E13 0x1E12; P 0x1E15 0x1E14; P 0x1E17 0x1E16;
  P 0x1E19 0x1E18; P 0x1E1B 0x1E1A; P 0x1E1D 0x1E1C; P 0x1E1F 0x1E1E; P 0x1E21 0x1E20; P 0x1E23 0x1E22;
  P 0x1E25 0x1E24; P 0x1E27 0x1E26; P 0x1E29 0x1E28; P 0x1E2B 0x1E2A; P 0x1E2D 0x1E2C; P 0x1E2F 0x1E2E;
  P 0x1E31 0x1E30; P 0x1E33 0x1E32; P 0x1E35 0x1E34; P 0x1E37 0x1E36; P 0x1E39 0x1E38; P 0x1E3B 0x1E3A;
  P 0x1E3D 0x1E3C; P 0x1E3F 0x1E3E; P 0x1E41 0x1E40; P 0x1E43 0x1E42; P 0x1E45 0x1E44; P 0x1E47 0x1E46;
  P 0x1E49 0x1E48; P 0x1E4B 0x1E4A; P 0x1E4D 0x1E4C; P 0x1E4F 0x1E4E; P 0x1E51 0x1E50; P 0x1E53 0x1E52;
  P 0x1E55 0x1E54; P 0x1E57 0x1E56; P 0x1E59 0x1E58; P 0x1E5B 0x1E5A; P 0x1E5D 0x1E5C; P 0x1E5F 0x1E5E;
  P 0x1E61 0x1E60; P 0x1E63 0x1E62; P 0x1E65 0x1E64; P 0x1E67 0x1E66; P 0x1E69 0x1E68; P 0x1E6B 0x1E6A;
  P 0x1E6D 0x1E6C; P 0x1E6F 0x1E6E; P 0x1E71 0x1E70; P 0x1E73 0x1E72; P 0x1E75 0x1E74; P 0x1E77 0x1E76;
  P 0x1E79 0x1E78; P 0x1E7B 0x1E7A; P 0x1E7D 0x1E7C; P 0x1E7F 0x1E7E; P 0x1E81 0x1E80; P 0x1E83 0x1E82;
  P 0x1E85 0x1E84; P 0x1E87 0x1E86; P 0x1E89 0x1E88; P 0x1E8B 0x1E8A; P 0x1E8D 0x1E8C; P 0x1E8F 0x1E8E;
  P 0x1E91 0x1E90; P 0x1E93 0x1E92; P 0x1E95 0x1E94; P 0x1E9B 0x1E60; P 0x1EA1 0x1EA0; P 0x1EA3 0x1EA2;
  P 0x1EA5 0x1EA4; P 0x1EA7 0x1EA6; P 0x1EA9 0x1EA8; P 0x1EAB 0x1EAA; P 0x1EAD 0x1EAC; P 0x1EAF 0x1EAE;
  P 0x1EB1 0x1EB0; P 0x1EB3 0x1EB2; P 0x1EB5 0x1EB4; P 0x1EB7 0x1EB6; P 0x1EB9 0x1EB8; P 0x1EBB 0x1EBA;
  P 0x1EBD 0x1EBC; P 0x1EBF 0x1EBE; P 0x1EC1 0x1EC0; P 0x1EC3 0x1EC2; P 0x1EC5 0x1EC4; P 0x1EC7 0x1EC6;
  P 0x1EC9 0x1EC8; P 0x1ECB 0x1ECA; P 0x1ECD 0x1ECC; P 0x1ECF 0x1ECE; P 0x1ED1 0x1ED0; P 0x1ED3 0x1ED2;
  P 0x1ED5 0x1ED4; P 0x1ED7 0x1ED6; P 0x1ED9 0x1ED8; P 0x1EDB 0x1EDA; P 0x1EDD 0x1EDC; P 0x1EDF 0x1EDE;
  P 0x1EE1 0x1EE0; P 0x1EE3 0x1EE2; P 0x1EE5 0x1EE4; P 0x1EE7 0x1EE6; P 0x1EE9 0x1EE8; P 0x1EEB 0x1EEA;
  P 0x1EED 0x1EEC; P 0x1EEF 0x1EEE; P 0x1EF1 0x1EF0; P 0x1EF3 0x1EF2; P 0x1EF5 0x1EF4; P 0x1EF7 0x1EF6;
  P 0x1EF9 0x1EF8; P 0x1EFB 0x1EFA; P 0x1EFD 0x1EFC; P 0x1EFF 0x1EFE; P 0x1F00 0x1F08; P 0x1F01 0x1F09;
  P 0x1F02 0x1F0A; P 0x1F03 0x1F0B; P 0x1F04 0x1F0C; P 0x1F05 0x1F0D; P 0x1F06 0x1F0E; P 0x1F07 0x1F0F;
  P 0x1F10 0x1F18; P 0x1F11 0x1F19; P 0x1F12 0x1F1A; P 0x1F13 0x1F1B; P 0x1F14 0x1F1C; P 0x1F15 0x1F1D;
  P 0x1F20 0x1F28; P 0x1F21 0x1F29; P 0x1F22 0x1F2A; P 0x1F23 0x1F2B; P 0x1F24 0x1F2C; P 0x1F25 0x1F2D;
  P 0x1F26 0x1F2E; P 0x1F27 0x1F2F; P 0x1F30 0x1F38; P 0x1F31 0x1F39; P 0x1F32 0x1F3A; P 0x1F33 0x1F3B;
  P 0x1F34 0x1F3C; P 0x1F35 0x1F3D; P 0x1F36 0x1F3E; P 0x1F37 0x1F3F; P 0x1F40 0x1F48; P 0x1F41 0x1F49;
  P 0x1F42 0x1F4A; P 0x1F43 0x1F4B; P 0x1F44 0x1F4C; P 0x1F45 0x1F4D; P 0x1F51 0x1F59; P 0x1F53 0x1F5B;
  P 0x1F55 0x1F5D; P 0x1F57 0x1F5F; P 0x1F60 0x1F68; P 0x1F61 0x1F69; P 0x1F62 0x1F6A; P 0x1F63 0x1F6B;
  P 0x1F64 0x1F6C; P 0x1F65 0x1F6D; P 0x1F66 0x1F6E; P 0x1F67 0x1F6F; P 0x1F70 0x1FBA; P 0x1F71 0x1FBB;
  P 0x1F72 0x1FC8; P 0x1F73 0x1FC9; P 0x1F74 0x1FCA; P 0x1F75 0x1FCB; P 0x1F76 0x1FDA; P 0x1F77 0x1FDB;
  P 0x1F78 0x1FF8; P 0x1F79 0x1FF9; P 0x1F7A 0x1FEA; P 0x1F7B 0x1FEB; P 0x1F7C 0x1FFA; P 0x1F7D 0x1FFB;
  P 0x1F80 0x1F88; P 0x1F81 0x1F89; P 0x1F82 0x1F8A; P 0x1F83 0x1F8B; P 0x1F84 0x1F8C; P 0x1F85 0x1F8D;
  P 0x1F86 0x1F8E; P 0x1F87 0x1F8F; P 0x1F90 0x1F98; P 0x1F91 0x1F99; P 0x1F92 0x1F9A; P 0x1F93 0x1F9B;
  P 0x1F94 0x1F9C; P 0x1F95 0x1F9D; P 0x1F96 0x1F9E; P 0x1F97 0x1F9F; P 0x1FA0 0x1FA8; P 0x1FA1 0x1FA9;
  P 0x1FA2 0x1FAA; P 0x1FA3 0x1FAB; P 0x1FA4 0x1FAC; P 0x1FA5 0x1FAD; P 0x1FA6 0x1FAE; P 0x1FA7 0x1FAF;
  P 0x1FB0 0x1FB8; P 0x1FB1 0x1FB9; P 0x1FB3 0x1FBC; P 0x1FBE 0x399; P 0x1FC3 0x1FCC; P 0x1FD0 0x1FD8;
  P 0x1FD1 0x1FD9; P 0x1FE0 0x1FE8; P 0x1FE1 0x1FE9; P 0x1FE5 0x1FEC; P 0x1FF3 0x1FFC; P 0x214E 0x2132;
  P 0x2170 0x2160; P 0x2171 0x2161; P 0x2172 0x2162; P 0x2173 0x2163; P 0x2174 0x2164; P 0x2175 0x2165;
  P 0x2176 0x2166; P 0x2177 0x2167; P 0x2178 0x2168; P 0x2179 0x2169; P 0x217A 0x216A; P 0x217B 0x216B;
  P 0x217C 0x216C; P 0x217D 0x216D; P 0x217E 0x216E; P 0x217F 0x216F; P 0x2184 0x2183; P 0x24D0 0x24B6;
  P 0x24D1 0x24B7].
Definition upcase_cases_2 : list (entry Z) := [
  P 0x24D2 0x24B8; P 0x24D3 0x24B9; P 0x24D4 0x24BA; P 0x24D5 0x24BB; P 0x24D6 0x24BC; P 0x24D7 0x24BD;
  P 0x24D8 0x24BE; P 0x24D9 0x24BF; P 0x24DA 0x24C0; P 0x24DB 0x24C1; P 0x24DC 0x24C2; P 0x24DD 0x24C3;
  P 0x24DE 0x24C4; P 0x24DF 0x24C5; P 0x24E0 0x24C6; P 0x24E1 0x24C7; P 0x24E2 0x24C8; P 0x24E3 0x24C9;
  P 0x24E4 0x24CA; P 0x24E5 0x24CB; P 0x24E6 0x24CC; P 0x24E7 0x24CD; P 0x24E8 0x24CE; P 0x24E9 0x24CF;
  P 0x2C30 0x2C00; P 0x2C31 0x2C01; P 0x2C32 0x2C02; P 0x2C33 0x2C03; P 0x2C34 0x2C04; P 0x2C35 0x2C05;
  P 0x2C36 0x2C06; P 0x2C37 0x2C07; P 0x2C38 0x2C08; P 0x2C39 0x2C09; P 0x2C3A 0x2C0A; P 0x2C3B 0x2C0B;
  P 0x2C3C 0x2C0C; P 0x2C3D 0x2C0D; P 0x2C3E 0x2C0E; P 0x2C3F 0x2C0F; P 0x2C40 0x2C10; P 0x2C41 0x2C11;
  P 0x2C42 0x2C12; P 0x2C43 0x2C13; P 0x2C44 0x2C14; P 0x2C45 0x2C15; P 0x2C46 0x2C16; P 0x2C47 0x2C17;
  P 0x2C48 0x2C18; P 0x2C49 0x2C19; P 0x2C4A 0x2C1A; P 0x2C4B 0x2C1B; P 0x2C4C 0x2C1C; P 0x2C4D 0x2C1D;
  P 0x2C4E 0x2C1E; P 0x2C4F 0x2C1F; P 0x2C50 0x2C20; P 0x2C51 0x2C21; P 0x2C52 0x2C22; P 0x2C53 0x2C23;
  P 0x2C54 0x2C24; P 0x2C55 0x2C25; P 0x2C56 0x2C26; P 0x2C57 0x2C27; P 0x2C58 0x2C28; P 0x2C59 0x2C29;
  P 0x2C5A 0x2C2A; P 0x2C5B 0x2C2B; P 0x2C5C 0x2C2C; P 0x2C5D 0x2C2D; P 0x2C5E 0x2C2E; P 0x2C5F 0x2C2F;
  P 0x2C61 0x2C60; P 0x2C65 0x23A; P 0x2C66 0x23E; P 0x2C68 0x2C67; P 0x2C6A 0x2C69; P 0x2C6C 0x2C6B;
  P 0x2C73 0x2C72; P 0x2C76 0x2C75; P 0x2C81 0x2C80; P 0x2C83 0x2C82; P 0x2C85 0x2C84; P 0x2C87 0x2C86;
  P 0x2C89 0x2C88; P 0x2C8B 0x2C8A; P 0x2C8D 0x2C8C; P 0x2C8F 0x2C8E; P 0x2C91 0x2C90; P 0x2C93 0x2C92;
  P 0x2C95 0x2C94; P 0x2C97 0x2C96; P 0x2C99 0x2C98; P 0x2C9B 0x2C9A; P 0x2C9D 0x2C9C; P 0x2C9F 0x2C9E;
  P 0x2CA1 0x2CA0; P 0x2CA3 0x2CA2; P 0x2CA5 0x2CA4; P 0x2CA7 0x2CA6; P 0x2CA9 0x2CA8; P 0x2CAB 0x2CAA;
  P 0x2CAD 0x2CAC; P 0x2CAF 0x2CAE; P 0x2CB1 0x2CB0; P 0x2CB3 0x2CB2; P 0x2CB5 0x2CB4; P 0x2CB7 0x2CB6;
  P 0x2CB9 0x2CB8; P 0x2CBB 0x2CBA; P 0x2CBD 0x2CBC; P 0x2CBF 0x2CBE; P 0x2CC1 0x2CC0; P 0x2CC3 0x2CC2;
  P 0x2CC5 0x2CC4; P 0x2CC7 0x2CC6; P 0x2CC9 0x2CC8; P 0x2CCB 0x2CCA; P 0x2CCD 0x2CCC; P 0x2CCF 0x2CCE;
  P 0x2CD1 0x2CD0; P 0x2CD3 0x2CD2; P 0x2CD5 0x2CD4; P 0x2CD7 0x2CD6; P 0x2CD9 0x2CD8; P 0x2CDB 0x2CDA;
  P 0x2CDD 0x2CDC; P 0x2CDF 0x2CDE; P 0x2CE1 0x2CE0; P 0x2CE3 0x2CE2; P 0x2CEC 0x2CEB; P 0x2CEE 0x2CED;
  P 0x2CF3 0x2CF2; P 0x2D00 0x10A0; P 0x2D01 0x10A1; P 0x2D02 0x10A2; P 0x2D03 0x10A3; P 0x2D04 0x10A4;
  P 0x2D05 0x10A5; P 0x2D06 0x10A6; P 0x2D07 0x10A7; P 0x2D08 0x10A8; P 0x2D09 0x10A9; P 0x2D0A 0x10AA;
  P 0x2D0B 0x10AB; P 0x2D0C 0x10AC; P 0x2D0D 0x10AD; P 0x2D0E 0x10AE; P 0x2D0F 0x10AF; P 0x2D10 0x10B0;
  P 0x2D11 0x10B1; P 0x2D12 0x10B2; P 0x2D13 0x10B3; P 0x2D14 0x10B4; P 0x2D15 0x10B5; P 0x2D16 0x10B6;
  P 0x2D17 0x10B7; P 0x2D18 0x10B8; P 0x2D19 0x10B9; P 0x2D1A 0x10BA; P 0x2D1B 0x10BB; P 0x2D1C 0x10BC;
  P 0x2D1D 0x10BD; P 0x2D1E 0x10BE; P 0x2D1F 0x10BF; P 0x2D20 0x10C0; P 0x2D21 0x10C1; P 0x2D22 0x10C2;
  P 0x2D23 0x10C3; P 0x2D24 0x10C4; P 0x2D25 0x10C5; P 0x2D27 0x10C7; P 0x2D2D 0x10CD; P 0xA641 0xA640;
  P 0xA643 0xA642; P 0xA645 0xA644; P 0xA647 0xA646; P 0xA649 0xA648; P 0xA64B 0xA64A; P 0xA64D 0xA64C;
  P 0xA64F 0xA64E; P 0xA651 0xA650; P 0xA653 0xA652; P 0xA655 0xA654; P 0xA657 0xA656; P 0xA659 0xA658;
  P 0xA65B 0xA65A; P 0xA65D 0xA65C; P 0xA65F 0xA65E; P 0xA661 0xA660; P 0xA663 0xA662; P 0xA665 0xA664;
  P 0xA667 0xA666; P 0xA669 0xA668; P 0xA66B 0xA66A; P 0xA66D 0xA66C; P 0xA681 0xA680; P 0xA683 0xA682;
  P 0xA685 0xA684; P 0xA687 0xA686; P 0xA689 0xA688; P 0xA68B 0xA68A; P 0xA68D 0xA68C; P 0xA68F 0xA68E;
  P 0xA691 0xA690; P 0xA693 0xA692; P 0xA695 0xA694; P 0xA697 0xA696; P 0xA699 0xA698; P 0xA69B 0xA69A;
  P 0xA723 0xA722; P 0xA725 0xA724; P 0xA727 0xA726; P 0xA729 0xA728; P 0xA72B 0xA72A; P 0xA72D 0xA72C;
  P 0xA72F 0xA72E; P 0xA733 0xA732; P 0xA735 0xA734; P 0xA737 0xA736; P 0xA739 0xA738; P 0xA73B 0xA73A;
  P 0xA73D 0xA73C; P 0xA73F 0xA73E; P 0xA741 0xA740; P 0xA743 0xA742; P 0xA745 0xA744; P 0xA747 0xA746;
  P 0xA749 0xA748; P 0xA74B 0xA74A; P 0xA74D 0xA74C; P 0xA74F 0xA74E; P 0xA751 0xA750; P 0xA753 0xA752;
  P 0xA755 0xA754; P 0xA757 0xA756; P 0xA759 0xA758; P 0xA75B 0xA75A; P 0xA75D 0xA75C; P 0xA75F 0xA75E;
  P 0xA761 0xA760; P 0xA763 0xA762; P 0xA765 0xA764; P 0xA767 0xA766; P 0xA769 0xA768; P 0xA76B 0xA76A;
  P 0xA76D 0xA76C; P 0xA76F 0xA76E; P 0xA77A 0xA779; P 0xA77C 0xA77B; P 0xA77F 0xA77E; P 0xA781 0xA780;
  P 0xA783 0xA782; P 0xA785 0xA784; P 0xA787 0xA786; P 0xA78C 0xA78B; P 0xA791 0xA790; P 0xA793 0xA792;
  P 0xA794 0xA7C4; P 0xA797 0xA796; P 0xA799 0xA798; P 0xA79B 0xA79A; P 0xA79D 0xA79C; P 0xA79F 0xA79E;
  P 0xA7A1 0xA7A0; P 0xA7A3 0xA7A2; P 0xA7A5 0xA7A4; P 0xA7A7 0xA7A6; P 0xA7A9 0xA7A8; P 0xA7B5 0xA7B4;
  P 0xA7B7 0xA7B6; P 0xA7B9 0xA7B8; P 0xA7BB 0xA7BA; P 0xA7BD 0xA7BC; P 0xA7BF 0xA7BE; P 0xA7C1 0xA7C0;
  P 0xA7C3 0xA7C2; P 0xA7C8 0xA7C7; P 0xA7CA 0xA7C9; P 0xA7D1 0xA7D0; P 0xA7D7 0xA7D6; P 0xA7D9 0xA7D8;
  P 0xA7F6 0xA7F5; P 0xAB53 0xA7B3; P 0xAB70 0x13A0; P 0xAB71 0x13A1; P 0xAB72 0x13A2; P 0xAB73 0x13A3;
  P 0xAB74 0x13A4; P 0xAB75 0x13A5; P 0xAB76 0x13A6; P 0xAB77 0x13A7; P 0xAB78 0x13A8; P 0xAB79 0x13A9;
  P 0xAB7A 0x13AA; P 0xAB7B 0x13AB; P 0xAB7C 0x13AC; P 0xAB7D 0x13AD; P 0xAB7E 0x13AE; P 0xAB7F 0x13AF;
  P 0xAB80 0x13B0; P 0xAB81 0x13B1; P 0xAB82 0x13B2; P 0xAB83 0x13B3; P 0xAB84 0x13B4; P 0xAB85 0x13B5;
  P 0xAB86 0x13B6; P 0xAB87 0x13B7; P 0xAB88 0x13B8; P 0xAB89 0x13B9; P 0xAB8A 0x13BA; P 0xAB8B 0x13BB;
  P 0xAB8C 0x13BC; P 0xAB8D 0x13BD; P 0xAB8E 0x13BE; P 0xAB8F 0x13BF; P 0xAB90 0x13C0; P 0xAB91 0x13C1;
  P 0xAB92 0x13C2; P 0xAB93 0x13C3; P 0xAB94 0x13C4; P 0xAB95 0x13C5; P 0xAB96 0x13C6; P 0xAB97 0x13C7;
  P 0xAB98 0x13C8; P 0xAB99 0x13C9; P 0xAB9A 0x13CA; P 0xAB9B 0x13CB; P 0xAB9C 0x13CC; P 0xAB9D 0x13CD;
  P 0xAB9E 0x13CE; P 0xAB9F 0x13CF; P 0xABA0 0x13D0; P 0xABA1 0x13D1; P 0xABA2 0x13D2; P 0xABA3 0x13D3;
  P 0xABA4 0x13D4; P 0xABA5 0x13D5; P 0xABA6 0x13D6; P 0xABA7 0x13D7; P 0xABA8 0x13D8; P 0xABA9 0x13D9;
  P 0xABAA 0x13DA; P 0xABAB 0x13DB; P 0xABAC 0x13DC; P 0xABAD 0x13DD; P 0xABAE 0x13DE; P 0xABAF 0x13DF;
  P 0xABB0 0x13E0; P 0xABB1 0x13E1; P 0xABB2 0x13E2; P 0xABB3 0x13E3; P 0xABB4 0x13E4; P 0xABB5 0x13E5;
  P 0xABB6 0x13E6; P 0xABB7 0x13E7; P 0xABB8 0x13E8; P 0xABB9 0x13E9; P 0xABBA 0x13EA; P 0xABBB 0x13EB;
  P 0xABBC 0x13EC; P 0xABBD 0x13ED; P 0xABBE 0x13EE; P 0xABBF 0x13EF; P 0xFF41 0xFF21; P 0xFF42 0xFF22;
  P 0xFF43 0xFF23; P 0xFF44 0xFF24; P 0xFF45 0xFF25; P 0xFF46 0xFF26; P 0xFF47 0xFF27; P 0xFF48 0xFF28;
  P 0xFF49 0xFF29; P 0xFF4A 0xFF2A; P 0xFF4B 0xFF2B; P 0xFF4C 0xFF2C; P 0xFF4D 0xFF2D; P 0xFF4E 0xFF2E;
  P 0xFF4F 0xFF2F; P 0xFF50 0xFF30; P 0xFF51 0xFF31; P 0xFF52 0xFF32; P 0xFF53 0xFF33; P 0xFF54 0xFF34;
  P 0xFF55 0xFF35; P 0xFF56 0xFF36; P 0xFF57 0xFF37; P 0xFF58 0xFF38; P 0xFF59 0xFF39; P 0xFF5A 0xFF3A;
  P 0x10428 0x10400; P 0x10429 0x10401; P 0x1042A 0x10402; P 0x1042B 0x10403; P 0x1042C 0x10404; P 0x1042D 0x10405;
  P 0x1042E 0x10406; P 0x1042F 0x10407; P 0x10430 0x10408; P 0x10431 0x10409].
Definition upcase_cases_3 : list (entry Z) := [
  P 0x10432 0x1040A; P 0x10433 0x1040B; P 0x10434 0x1040C; P 0x10435 0x1040D; P 0x10436 0x1040E; P 0x10437 0x1040F;
  P 0x10438 0x10410; P 0x10439 0x10411; P 0x1043A 0x10412; P 0x1043B 0x10413; P 0x1043C 0x10414; P 0x1043D 0x10415;
  P 0x1043E 0x10416; P 0x1043F 0x10417; P 0x10440 0x10418; P 0x10441 0x10419; P 0x10442 0x1041A; P 0x10443 0x1041B;
  P 0x10444 0x1041C; P 0x10445 0x1041D; P 0x10446 0x1041E; P 0x10447 0x1041F; P 0x10448 0x10420; P 0x10449 0x10421;
  P 0x1044A 0x10422; P 0x1044B 0x10423; P 0x1044C 0x10424; P 0x1044D 0x10425; P 0x1044E 0x10426; P 0x1044F 0x10427;
  P 0x104D8 0x104B0; P 0x104D9 0x104B1; P 0x104DA 0x104B2; P 0x104DB 0x104B3; P 0x104DC 0x104B4; P 0x104DD 0x104B5;
  P 0x104DE 0x104B6; P 0x104DF 0x104B7; P 0x104E0 0x104B8; P 0x104E1 0x104B9; P 0x104E2 0x104BA; P 0x104E3 0x104BB;
  P 0x104E4 0x104BC; P 0x104E5 0x104BD; P 0x104E6 0x104BE; P 0x104E7 0x104BF; P 0x104E8 0x104C0; P 0x104E9 0x104C1;
  P 0x104EA 0x104C2; P 0x104EB 0x104C3; P 0x104EC 0x104C4; P 0x104ED 0x104C5; P 0x104EE 0x104C6; P 0x104EF 0x104C7;
  P 0x104F0 0x104C8; P 0x104F1 0x104C9; P 0x104F2 0x104CA; P 0x104F3 0x104CB; P 0x104F4 0x104CC; P 0x104F5 0x104CD;
  P 0x104F6 0x104CE; P 0x104F7 0x104CF; P 0x104F8 0x104D0; P 0x104F9 0x104D1; P 0x104FA 0x104D2; P 0x104FB 0x104D3;
  P 0x10597 0x10570; P 0x10598 0x10571; P 0x10599 0x10572; P 0x1059A 0x10573; P 0x1059B 0x10574; P 0x1059C 0x10575;
  P 0x1059D 0x10576; P 0x1059E 0x10577; P 0x1059F 0x10578; P 0x105A0 0x10579; P 0x105A1 0x1057A; P 0x105A3 0x1057C;
  P 0x105A4 0x1057D; P 0x105A5 0x1057E; P 0x105A6 0x1057F; P 0x105A7 0x10580; P 0x105A8 0x10581; P 0x105A9 0x10582;
  P 0x105AA 0x10583; P 0x105AB 0x10584; P 0x105AC 0x10585; P 0x105AD 0x10586; P 0x105AE 0x10587; P 0x105AF 0x10588;
  P 0x105B0 0x10589; P 0x105B1 0x1058A; P 0x105B3 0x1058C; P 0x105B4 0x1058D; P 0x105B5 0x1058E; P 0x105B6 0x1058F;
  P 0x105B7 0x10590; P 0x105B8 0x10591; P 0x105B9 0x10592; P 0x105BB 0x10594; P 0x105BC 0x10595; P 0x10CC0 0x10C80;
  P 0x10CC1 0x10C81; P 0x10CC2 0x10C82; P 0x10CC3 0x10C83; P 0x10CC4 0x10C84; P 0x10CC5 0x10C85; P 0x10CC6 0x10C86;
  P 0x10CC7 0x10C87; P 0x10CC8 0x10C88; P 0x10CC9 0x10C89; P 0x10CCA 0x10C8A; P 0x10CCB 0x10C8B; P 0x10CCC 0x10C8C;
  P 0x10CCD 0x10C8D; P 0x10CCE 0x10C8E; P 0x10CCF 0x10C8F; P 0x10CD0 0x10C90; P 0x10CD1 0x10C91; P 0x10CD2 0x10C92;
  P 0x10CD3 0x10C93; P 0x10CD4 0x10C94; P 0x10CD5 0x10C95; P 0x10CD6 0x10C96; P 0x10CD7 0x10C97; P 0x10CD8 0x10C98;
  P 0x10CD9 0x10C99; P 0x10CDA 0x10C9A; P 0x10CDB 0x10C9B; P 0x10CDC 0x10C9C; P 0x10CDD 0x10C9D; P 0x10CDE 0x10C9E;
  P 0x10CDF 0x10C9F; P 0x10CE0 0x10CA0; P 0x10CE1 0x10CA1; P 0x10CE2 0x10CA2; P 0x10CE3 0x10CA3; P 0x10CE4 0x10CA4;
  P 0x10CE5 0x10CA5; P 0x10CE6 0x10CA6; P 0x10CE7 0x10CA7; P 0x10CE8 0x10CA8; P 0x10CE9 0x10CA9; P 0x10CEA 0x10CAA;
  P 0x10CEB 0x10CAB; P 0x10CEC 0x10CAC; P 0x10CED 0x10CAD; P 0x10CEE 0x10CAE; P 0x10CEF 0x10CAF; P 0x10CF0 0x10CB0;
  P 0x10CF1 0x10CB1; P 0x10CF2 0x10CB2; P 0x118C0 0x118A0; P 0x118C1 0x118A1; P 0x118C2 0x118A2; P 0x118C3 0x118A3;
  P 0x118C4 0x118A4; P 0x118C5 0x118A5; P 0x118C6 0x118A6; P 0x118C7 0x118A7; P 0x118C8 0x118A8; P 0x118C9 0x118A9;
  P 0x118CA 0x118AA; P 0x118CB 0x118AB; P 0x118CC 0x118AC; P 0x118CD 0x118AD; P 0x118CE 0x118AE; P 0x118CF 0x118AF;
  P 0x118D0 0x118B0; P 0x118D1 0x118B1; P 0x118D2 0x118B2; P 0x118D3 0x118B3; P 0x118D4 0x118B4; P 0x118D5 0x118B5;
  P 0x118D6 0x118B6; P 0x118D7 0x118B7; P 0x118D8 0x118B8; P 0x118D9 0x118B9; P 0x118DA 0x118BA; P 0x118DB 0x118BB;
  P 0x118DC 0x118BC; P 0x118DD 0x118BD; P 0x118DE 0x118BE; P 0x118DF 0x118BF; P 0x16E60 0x16E40; P 0x16E61 0x16E41;
  P 0x16E62 0x16E42; P 0x16E63 0x16E43; P 0x16E64 0x16E44; P 0x16E65 0x16E45; P 0x16E66 0x16E46; P 0x16E67 0x16E47;
  P 0x16E68 0x16E48; P 0x16E69 0x16E49; P 0x16E6A 0x16E4A; P 0x16E6B 0x16E4B; P 0x16E6C 0x16E4C; P 0x16E6D 0x16E4D;
  P 0x16E6E 0x16E4E; P 0x16E6F 0x16E4F; P 0x16E70 0x16E50; P 0x16E71 0x16E51; P 0x16E72 0x16E52; P 0x16E73 0x16E53;
  P 0x16E74 0x16E54; P 0x16E75 0x16E55; P 0x16E76 0x16E56; P 0x16E77 0x16E57; P 0x16E78 0x16E58; P 0x16E79 0x16E59;
  P 0x16E7A 0x16E5A; P 0x16E7B 0x16E5B; P 0x16E7C 0x16E5C; P 0x16E7D 0x16E5D; P 0x16E7E 0x16E5E; P 0x16E7F 0x16E5F;
  P 0x1E922 0x1E900; P 0x1E923 0x1E901; P 0x1E924 0x1E902; P 0x1E925 0x1E903; P 0x1E926 0x1E904; P 0x1E927 0x1E905;
  P 0x1E928 0x1E906; P 0x1E929 0x1E907; P 0x1E92A 0x1E908; P 0x1E92B 0x1E909; P 0x1E92C 0x1E90A; P 0x1E92D 0x1E90B;
  P 0x1E92E 0x1E90C; P 0x1E92F 0x1E90D; P 0x1E930 0x1E90E; P 0x1E931 0x1E90F; P 0x1E932 0x1E910; P 0x1E933 0x1E911;
  P 0x1E934 0x1E912; P 0x1E935 0x1E913; P 0x1E936 0x1E914; P 0x1E937 0x1E915; P 0x1E938 0x1E916; P 0x1E939 0x1E917;
  P 0x1E93A 0x1E918; P 0x1E93B 0x1E919; P 0x1E93C 0x1E91A; P 0x1E93D 0x1E91B; P 0x1E93E 0x1E91C; P 0x1E93F 0x1E91D;
  P 0x1E940 0x1E91E; P 0x1E941 0x1E91F; P 0x1E942 0x1E920; P 0x1E943 0x1E921].
(** unicode/upcase.hpp: the thirteenth field where it is not empty *)
Definition upcase_cases : list (entry Z) := upcase_cases_0 ++ upcase_cases_1 ++ upcase_cases_2 ++ upcase_cases_3.

Definition downcase_cases_0 : list (entry Z) := [
  P 0x41 0x61; P 0x42 0x62; P 0x43 0x63; P 0x44 0x64; P 0x45 0x65; P 0x46 0x66; P 0x47 0x67; P 0x48 0x68;
  P 0x49 0x69; P 0x4A 0x6A; P 0x4B 0x6B; P 0x4C 0x6C; P 0x4D 0x6D; P 0x4E 0x6E; P 0x4F 0x6F; P 0x50 0x70;
  P 0x51 0x71; P 0x52 0x72; P 0x53 0x73; P 0x54 0x74; P 0x55 0x75; P 0x56 0x76; P 0x57 0x77; P 0x58 0x78;
  P 0x59 0x79; P 0x5A 0x7A; P 0xC0 0xE0; P 0xC1 0xE1; P 0xC2 0xE2; P 0xC3 0xE3; P 0xC4 0xE4; P 0xC5 0xE5;
  P 0xC6 0xE6; P 0xC7 0xE7; P 0xC8 0xE8; P 0xC9 0xE9; P 0xCA 0xEA; P 0xCB 0xEB; P 0xCC 0xEC; P 0xCD 0xED;
  P 0xCE 0xEE; P 0xCF 0xEF; P 0xD0 0xF0; P 0xD1 0xF1; P 0xD2 0xF2; P 0xD3 0xF3; P 0xD4 0xF4; P 0xD5 0xF5;
  P 0xD6 0xF6; P 0xD8 0xF8; P 0xD9 0xF9; P 0xDA 0xFA; P 0xDB 0xFB; P 0xDC 0xFC; P 0xDD 0xFD; P 0xDE 0xFE;
  P 0x100 0x101; P 0x102 0x103; P 0x104 0x105; P 0x106 0x107; P 0x108 0x109; P 0x10A 0x10B; P 0x10C 0x10D;
  P 0x10E 0x10F; P 0x110 0x111; P 0x112 0x113; P 0x114 0x115; P 0x116 0x117; P 0x118 0x119; P 0x11A 0x11B;
  P 0x11C 0x11D; P 0x11E 0x11F; P 0x120 0x121; P 0x122 0x123; P 0x124 0x125; P 0x126 0x127; P 0x128 0x129;
  P 0x12A 0x12B; P 0x12C 0x12D; P 0x12E 0x12F; P 0x130 0x69; P 0x132 0x133; P 0x134 0x135; P 0x136 0x137;
  P 0x139 0x13A; P 0x13B 0x13C; P 0x13D 0x13E; P 0x13F 0x140; P 0x141 0x142; P 0x143 0x144; P 0x145 0x146;
  P 0x147 0x148; P 0x14A 0x14B; P 0x14C 0x14D; P 0x14E 0x14F; P 0x150 0x151; P 0x152 0x153; P 0x154 0x155;
  P 0x156 0x157; P 0x158 0x159; P 0x15A 0x15B; P 0x15C 0x15D; P 0x15E 0x15F; P 0x160 0x161; P 0x162 0x163;
  P 0x164 0x165; P 0x166 0x167; P 0x168 0x169; P 0x16A 0x16B; P 0x16C 0x16D; P 0x16E 0x16F; P 0x170 0x171;
  P 0x172 0x173; P 0x174 0x175; P 0x176 0x177; P 0x178 0xFF; P 0x179 0x17A; P 0x17B 0x17C; P 0x17D 0x17E;
  P 0x181 0x253; P 0x182 0x183; P 0x184 0x185; P 0x186 0x254; P 0x187 0x188; P 0x189 0x256; P 0x18A 0x257;
  P 0x18B 0x18C; P 0x18E 0x1DD; P 0x18F 0x259; P 0x190 0x25B; P 0x191 0x192; P 0x193 0x260; P 0x194 0x263;
  P 0x196 0x269; P 0x197 0x268; P 0x198 0x199; P 0x19C 0x26F; P 0x19D 0x272; P 0x19F 0x275; P 0x1A0 0x1A1;
  P 0x1A2 0x1A3; P 0x1A4 0x1A5; P 0x1A6 0x280; P 0x1A7 0x1A8; P 0x1A9 0x283; P 0x1AC 0x1AD; P 0x1AE 0x288;
  P 0x1AF 0x1B0; P 0x1B1 0x28A; P 0x1B2 0x28B; P 0x1B3 0x1B4; P 0x1B5 0x1B6; P 0x1B7 0x292; P 0x1B8 0x1B9;
  P 0x1BC 0x1BD; P 0x1C4 0x1C6; P 0x1C5 0x1C6; P 0x1C7 0x1C9; P 0x1C8 0x1C9; P 0x1CA 0x1CC; P 0x1CB 0x1CC;
  P 0x1CD 0x1CE; P 0x1CF 0x1D0; P 0x1D1 0x1D2; P 0x1D3 0x1D4; P 0x1D5 0x1D6; P 0x1D7 0x1D8; P 0x1D9 0x1DA;
  P 0x1DB 0x1DC; P 0x1DE 0x1DF; P 0x1E0 0x1E1; P 0x1E2 0x1E3; P 0x1E4 0x1E5; P 0x1E6 0x1E7; P 0x1E8 0x1E9;
  P 0x1EA 0x1EB; P 0x1EC 0x1ED; P 0x1EE 0x1EF; P 0x1F1 0x1F3; P 0x1F2 0x1F3; P 0x1F4 0x1F5; P 0x1F6 0x195;
  P 0x1F7 0x1BF; P 0x1F8 0x1F9; P 0x1FA 0x1FB; P 0x1FC 0x1FD; P 0x1FE 0x1FF; P 0x200 0x201; P 0x202 0x203;
  P 0x204 0x205; P 0x206 0x207; P 0x208 0x209; P 0x20A 0x20B; P 0x20C 0x20D; P 0x20E 0x20F; P 0x210 0x211;
  P 0x212 0x213; P 0x214 0x215; P 0x216 0x217; P 0x218 0x219; P 0x21A 0x21B; P 0x21C 0x21D; P 0x21E 0x21F;
  P 0x220 0x19E; P 0x222 0x223; P 0x224 0x225; P 0x226 0x227; P 0x228 0x229; P 0x22A 0x22B; P 0x22C 0x22D;
  P 0x22E 0x22F; P 0x230 0x231; P 0x232 0x233; P 0x23A 0x2C65; P 0x23B 0x23C; P 0x23D 0x19A; P 0x23E 0x2C66;
  P 0x241 0x242; P 0x243 0x180; P 0x244 0x289; P 0x245 0x28C; P 0x246 0x247; P 0x248 0x249; P 0x24A 0x24B;
  P 0x24C 0x24D; P 0x24E 0x24F; P 0x370 0x371; P 0x372 0x373; P 0x376 0x377; P 0x37F 0x3F3; P 0x386 0x3AC;
  P 0x388 0x3AD; P 0x389 0x3AE; P 0x38A 0x3AF; P 0x38C 0x3CC; P 0x38E 0x3CD; P 0x38F 0x3CE; P 0x391 0x3B1;
  P 0x392 0x3B2; P 0x393 0x3B3; P 0x394 0x3B4; P 0x395 0x3B5; P 0x396 0x3B6; P 0x397 0x3B7; P 0x398 0x3B8;
  P 0x399 0x3B9; P 0x39A 0x3BA; P 0x39B 0x3BB; P 0x39C 0x3BC; P 0x39D 0x3BD; P 0x39E 0x3BE; P 0x39F 0x3BF;
  P 0x3A0 0x3C0; P 0x3A1 0x3C1; P 0x3A3 0x3C3; P 0x3A4 0x3C4; P 0x3A5 0x3C5; P 0x3A6 0x3C6; P 0x3A7 0x3C7;
  P 0x3A8 0x3C8; P 0x3A9 0x3C9; P 0x3AA 0x3CA; P 0x3AB 0x3CB; P 0x3CF 0x3D7; P 0x3D8 0x3D9; P 0x3DA 0x3DB;
  P 0x3DC 0x3DD; P 0x3DE 0x3DF; P 0x3E0 0x3E1; P 0x3E2 0x3E3; P 0x3E4 0x3E5; P 0x3E6 0x3E7; P 0x3E8 0x3E9;
  P 0x3EA 0x3EB; P 0x3EC 0x3ED; P 0x3EE 0x3EF; P 0x3F4 0x3B8; P 0x3F7 0x3F8; P 0x3F9 0x3F2; P 0x3FA 0x3FB;
  P 0x3FD 0x37B; P 0x3FE 0x37C; P 0x3FF 0x37D; P 0x400 0x450; P 0x401 0x451; P 0x402 0x452; P 0x403 0x453;
  P 0x404 0x454; P 0x405 0x455; P 0x406 0x456; P 0x407 0x457; P 0x408 0x458; P 0x409 0x459; P 0x40A 0x45A;
  P 0x40B 0x45B; P 0x40C 0x45C; P 0x40D 0x45D; P 0x40E 0x45E; P 0x40F 0x45F; P 0x410 0x430; P 0x411 0x431;
  P 0x412 0x432; P 0x413 0x433; P 0x414 0x434; P 0x415 0x435; P 0x416 0x436; P 0x417 0x437; P 0x418 0x438;
  P 0x419 0x439; P 0x41A 0x43A; P 0x41B 0x43B; P 0x41C 0x43C; P 0x41D 0x43D; P 0x41E 0x43E; P 0x41F 0x43F;
  P 0x420 0x440; P 0x421 0x441; P 0x422 0x442; P 0x423 0x443; P 0x424 0x444; P 0x425 0x445; P 0x426 0x446;
  P 0x427 0x447; P 0x428 0x448; P 0x429 0x449; P 0x42A 0x44A; P 0x42B 0x44B; P 0x42C 0x44C; P 0x42D 0x44D;
  P 0x42E 0x44E; P 0x42F 0x44F; P 0x460 0x461; P 0x462 0x463; P 0x464 0x465; P 0x466 0x467; P 0x468 0x469;
  P 0x46A 0x46B; P 0x46C 0x46D; P 0x46E 0x46F; P 0x470 0x471; P 0x472 0x473; P 0x474 0x475; P 0x476 0x477;
  P 0x478 0x479; P 0x47A 0x47B; P 0x47C 0x47D; P 0x47E 0x47F; P 0x480 0x481; P 0x48A 0x48B; P 0x48C 0x48D;
  P 0x48E 0x48F; P 0x490 0x491; P 0x492 0x493; P 0x494 0x495; P 0x496 0x497; P 0x498 0x499; P 0x49A 0x49B;
  P 0x49C 0x49D; P 0x49E 0x49F; P 0x4A0 0x4A1; P 0x4A2 0x4A3; P 0x4A4 0x4A5; P 0x4A6 0x4A7; P 0x4A8 0x4A9;
  P 0x4AA 0x4AB; P 0x4AC 0x4AD; P 0x4AE 0x4AF; P 0x4B0 0x4B1; P 0x4B2 0x4B3; P 0x4B4 0x4B5; P 0x4B6 0x4B7;
  P 0x4B8 0x4B9; P 0x4BA 0x4BB; P 0x4BC 0x4BD; P 0x4BE 0x4BF; P 0x4C0 0x4CF; P 0x4C1 0x4C2; P 0x4C3 0x4C4;
  P 0x4C5 0x4C6; P 0x4C7 0x4C8; P 0x4C9 0x4CA; P 0x4CB 0x4CC; P 0x4CD 0x4CE; P 0x4D0 0x4D1; P 0x4D2 0x4D3;
  P 0x4D4 0x4D5; P 0x4D6 0x4D7; P 0x4D8 0x4D9; P 0x4DA 0x4DB; P 0x4DC 0x4DD; P 0x4DE 0x4DF; P 0x4E0 0x4E1;
  P 0x4E2 0x4E3; P 0x4E4 0x4E5; P 0x4E6 0x4E7; P 0x4E8 0x4E9; P 0x4EA 0x4EB; P 0x4EC 0x4ED; P 0x4EE 0x4EF;
  P 0x4F0 0x4F1].
Definition downcase_cases_1 : list (entry Z) := [
  P 0x4F2 0x4F3; P 0x4F4 0x4F5; P 0x4F6 0x4F7; P 0x4F8 0x4F9; P 0x4FA 0x4FB; P 0x4FC 0x4FD; P 0x4FE 0x4FF;
  P 0x500 0x501; P 0x502 0x503; P 0x504 0x505; P 0x506 0x507; P 0x508 0x509; P 0x50A 0x50B; P 0x50C 0x50D;
  P 0x50E 0x50F; P 0x510 0x511; P 0x512 0x513; P 0x514 0x515; P 0x516 0x517; P 0x518 0x519; P 0x51A 0x51B;
  P 0x51C 0x51D; P 0x51E 0x51F; P 0x520 0x521; P 0x522 0x523; P 0x524 0x525; P 0x526 0x527; P 0x528 0x529;
  P 0x52A 0x52B; P 0x52C 0x52D; P 0x52E 0x52F; P 0x531 0x561; P 0x532 0x562; P 0x533 0x563; P 0x534 0x564;
  P 0x535 0x565; P 0x536 0x566; P 0x537 0x567; P 0x538 0x568; P 0x539 0x569; P 0x53A 0x56A; P 0x53B 0x56B;
  P 0x53C 0x56C; P 0x53D 0x56D; P 0x53E 0x56E; P 0x53F 0x56F; P 0x540 0x570; P 0x541 0x571; P 0x542 0x572;
  P 0x543 0x573; P 0x544 0x574; P 0x545 0x575; P 0x546 0x576; P 0x547 0x577; P 0x548 0x578; P 0x549 0x579;
  P 0x54A 0x57A; P 0x54B 0x57B; P 0x54C 0x57C; P 0x54D 0x57D; P 0x54E 0x57E; P 0x54F 0x57F; P 0x550 0x580;
  P 0x551 0x581; P 0x552 0x582; P 0x553 0x583; P 0x554 0x584; P 0x555 0x585; P 0x556 0x586; P 0x10A0 0x2D00;
  P 0x10A1 0x2D01; P 0x10A2 0x2D02; P 0x10A3 0x2D03; P 0x10A4 0x2D04; P 0x10A5 0x2D05; P 0x10A6 0x2D06;
  P 0x10A7 0x2D07; P 0x10A8 0x2D08; P 0x10A9 0x2D09; P 0x10AA 0x2D0A; P 0x10AB 0x2D0B; P 0x10AC 0x2D0C;
  P 0x10AD 0x2D0D; P 0x10AE 0x2D0E; P 0x10AF 0x2D0F; P 0x10B0 0x2D10; P 0x10B1 0x2D11; P 0x10B2 0x2D12;
  P 0x10B3 0x2D13; P 0x10B4 0x2D14; P 0x10B5 0x2D15; P 0x10B6 0x2D16; P 0x10B7 0x2D17; P 0x10B8 0x2D18;
  P 0x10B9 0x2D19; P 0x10BA 0x2D1A; P 0x10BB 0x2D1B; P 0x10BC 0x2D1C; P 0x10BD 0x2D1D; P 0x10BE 0x2D1E;
  P 0x10BF 0x2D1F; P 0x10C0 0x2D20; P 0x10C1 0x2D21; P 0x10C2 0x2D22; P 0x10C3 0x2D23; P 0x10C4 0x2D24;
  P 0x10C5 0x2D25; P 0x10C7 0x2D27; P 0x10CD 0x2D2D; P 0x13A0 0xAB70; P 0x13A1 0xAB71; P 0x13A2 0xAB72;
  P 0x13A3 0xAB73; P 0x13A4 0xAB74; P 0x13A5 0xAB75; P 0x13A6 0xAB76; P 0x13A7 0xAB77; P 0x13A8 0xAB78;
  P 0x13A9 0xAB79; P 0x13AA 0xAB7A; P 0x13AB 0xAB7B; P 0x13AC 0xAB7C; P 0x13AD 0xAB7D; P 0x13AE 0xAB7E;
  P 0x13AF 0xAB7F; P 0x13B0 0xAB80; P 0x13B1 0xAB81; P 0x13B2 0xAB82; P 0x13B3 0xAB83; P 0x13B4 0xAB84;
  P 0x13B5 0xAB85; P 0x13B6 0xAB86; P 0x13B7 0xAB87; P 0x13B8 0xAB88; P 0x13B9 0xAB89; P 0x13BA 0xAB8A;
  P 0x13BB 0xAB8B; P 0x13BC 0xAB8C; P 0x13BD 0xAB8D; P 0x13BE 0xAB8E; P 0x13BF 0xAB8F; P 0x13C0 0xAB90;
  P 0x13C1 0xAB91; P 0x13C2 0xAB92; P 0x13C3 0xAB93; P 0x13C4 0xAB94; P 0x13C5 0xAB95; P 0x13C6 0xAB96;
  P 0x13C7 0xAB97; P 0x13C8 0xAB98; P 0x13C9 0xAB99; P 0x13CA 0xAB9A; P 0x13CB 0xAB9B; P 0x13CC 0xAB9C;
  P 0x13CD 0xAB9D; P 0x13CE 0xAB9E; P 0x13CF 0xAB9F; P 0x13D0 0xABA0; P 0x13D1 0xABA1; P 0x13D2 0xABA2;
  P 0x13D3 0xABA3; P 0x13D4 0xABA4; P 0x13D5 0xABA5; P 0x13D6 0xABA6; P 0x13D7 0xABA7; P 0x13D8 0xABA8;
  P 0x13D9 0xABA9; P 0x13DA 0xABAA; P 0x13DB 0xABAB; P 0x13DC 0xABAC; P 0x13DD 0xABAD; P 0x13DE 0xABAE;
  P 0x13DF 0xABAF; P 0x13E0 0xABB0; P 0x13E1 0xABB1; P 0x13E2 0xABB2; P 0x13E3 0xABB3; P 0x13E4 0xABB4;
  P 0x13E5 0xABB5; P 0x13E6 0xABB6; P 0x13E7 0xABB7; P 0x13E8 0xABB8; P 0x13E9 0xABB9; P 0x13EA 0xABBA;
  P 0x13EB 0xABBB; P 0x13EC 0xABBC; P 0x13ED 0xABBD; P 0x13EE 0xABBE; P 0x13EF 0xABBF; P 0x13F0 0x13F8;
  P 0x13F1 0x13F9; P 0x13F2 0x13FA; P 0x13F3 0x13FB; P 0x13F4 0x13FC; P 0x13F5 0x13FD; P 0x1C90 0x10D0;
  P 0x1C91 0x10D1; P 0x1C92 0x10D2; P 0x1C93 0x10D3; P 0x1C94 0x10D4; P 0x1C95 0x10D5; P 0x1C96 0x10D6;
  P 0x1C97 0x10D7; P 0x1C98 0x10D8; P 0x1C99 0x10D9; P 0x1C9A 0x10DA; P 0x1C9B 0x10DB; P 0x1C9C 0x10DC;
  P 0x1C9D 0x10DD; P 0x1C9E 0x10DE; P 0x1C9F 0x10DF; P 0x1CA0 0x10E0; P 0x1CA1 0x10E1; P 0x1CA2 0x10E2;
  P 0x1CA3 0x10E3; P 0x1CA4 0x10E4; P 0x1CA5 0x10E5; P 0x1CA6 0x10E6; P 0x1CA7 0x10E7; P 0x1CA8 0x10E8;
  P 0x1CA9 0x10E9; P 0x1CAA 0x10EA; P 0x1CAB 0x10EB; P 0x1CAC 0x10EC; P 0x1CAD 0x10ED; P 0x1CAE 0x10EE;
  P 0x1CAF 0x10EF; P 0x1CB0 0x10F0; P 0x1CB1 0x10F1; P 0x1CB2 0x10F2; P 0x1CB3 0x10F3; P 0x1CB4 0x10F4;
  P 0x1CB5 0x10F5; P 0x1CB6 0x10F6; P 0x1CB7 0x10F7; P 0x1CB8 0x10F8; P 0x1CB9 0x10F9; P 0x1CBA 0x10FA;
  P 0x1CBD 0x10FD; P 0x1CBE 0x10FE; P 0x1CBF 0x10FF; P 0x1E00 0x1E01; P 0x1E02 0x1E03; P 0x1E04 0x1E05;
  P 0x1E06 0x1E07; P 0x1E08 0x1E09; P 0x1E0A 0x1E0B; P 0x1E0C 0x1E0D; P 0x1E0E 0x1E0F; P 0x1E10 0x1E11;
  P 0x1E12 0x1E13; P 0x1E14 0x1E15; P 0x1E16 0x1E17; P 0x1E18 0x1E19; P 0x1E1A 0x1E1B; P 0x1E1C 0x1E1D;
  P 0x1E1E 0x1E1F; P 0x1E20 0x1E21; P 0x1E22 0x1E23; P 0x1E24 0x1E25; P 0x1E26 0x1E27; P 0x1E28 0x1E29;
  P 0x1E2A 0x1E2B; P 0x1E2C 0x1E2D; P 0x1E2E 0x1E2F; P 0x1E30 0x1E31; P 0x1E32 0x1E33; P 0x1E34 0x1E35;
  P 0x1E36 0x1E37; P 0x1E38 0x1E39; P 0x1E3A 0x1E3B; P 0x1E3C 0x1E3D; P 0x1E3E 0x1E3F; P 0x1E40 0x1E41;
  P 0x1E42 0x1E43; P 0x1E44 0x1E45; P 0x1E46 0x1E47; P 0x1E48 0x1E49; P 0x1E4A 0x1E4B; P 0x1E4C 0x1E4D;
  P 0x1E4E 0x1E4F; P 0x1E50 0x1E51; P 0x1E52 0x1E53; P 0x1E54 0x1E55; P 0x1E56 0x1E57; P 0x1E58 0x1E59;
  P 0x1E5A 0x1E5B; P 0x1E5C 0x1E5D; P 0x1E5E 0x1E5F; P 0x1E60 0x1E61; P 0x1E62 0x1E63; P 0x1E64 0x1E65;
  P 0x1E66 0x1E67; P 0x1E68 0x1E69; P 0x1E6A 0x1E6B; P 0x1E6C 0x1E6D; P 0x1E6E 0x1E6F; P 0x1E70 0x1E71;
  P 0x1E72 0x1E73; P 0x1E74 0x1E75; P 0x1E76 0x1E77; P 0x1E78 0x1E79; P 0x1E7A 0x1E7B; P 0x1E7C 0x1E7D;
  P 0x1E7E 0x1E7F; P 0x1E80 0x1E81; P 0x1E82 0x1E83; P 0x1E84 0x1E85; P 0x1E86 0x1E87; P 0x1E88 0x1E89;
  P 0x1E8A 0x1E8B; P 0x1E8C 0x1E8D; P 0x1E8E 0x1E8F; P 0x1E90 0x1E91; P 0x1E92 0x1E93; P 0x1E94 0x1E95;
  P 0x1E9E 0xDF; P 0x1EA0 0x1EA1; P 0x1EA2 0x1EA3; P 0x1EA4 0x1EA5; P 0x1EA6 0x1EA7; P 0x1EA8 0x1EA9;
  P 0x1EAA 0x1EAB; P 0x1EAC 0x1EAD; P 0x1EAE 0x1EAF; P 0x1EB0 0x1EB1; P 0x1EB2 0x1EB3; P 0x1EB4 0x1EB5;
  P 0x1EB6 0x1EB7; P 0x1EB8 0x1EB9; P 0x1EBA 0x1EBB; P 0x1EBC 0x1EBD; P 0x1EBE 0x1EBF; P 0x1EC0 0x1EC1;
  P 0x1EC2 0x1EC3; P 0x1EC4 0x1EC5; P 0x1EC6 0x1EC7; P 0x1EC8 0x1EC9; P 0x1ECA 0x1ECB; P 0x1ECC 0x1ECD;
  P 0x1ECE 0x1ECF; P 0x1ED0 0x1ED1; P 0x1ED2 0x1ED3; P 0x1ED4 0x1ED5; P 0x1ED6 0x1ED7; P 0x1ED8 0x1ED9;
  P 0x1EDA 0x1EDB; P 0x1EDC 0x1EDD; P 0x1EDE 0x1EDF; P 0x1EE0 0x1EE1; P 0x1EE2 0x1EE3; P 0x1EE4 0x1EE5;
  P 0x1EE6 0x1EE7; P 0x1EE8 0x1EE9; P 0x1EEA 0x1EEB; P 0x1EEC 0x1EED; P 0x1EEE 0x1EEF; P 0x1EF0 0x1EF1;
  P 0x1EF2 0x1EF3; P 0x1EF4 0x1EF5; P 0x1EF6 0x1EF7; P 0x1EF8 0x1EF9; P 0x1EFA 0x1EFB; P 0x1EFC 0x1EFD;
  P 0x1EFE 0x1EFF; P 0x1F08 0x1F00; P 0x1F09 0x1F01; P 0x1F0A 0x1F02; P 0x1F0B 0x1F03; P 0x1F0C 0x1F04;
  P 0x1F0D 0x1F05; P 0x1F0E 0x1F06; P 0x1F0F 0x1F07; P 0x1F18 0x1F10; P 0x1F19 0x1F11; P 0x1F1A 0x1F12;
  P 0x1F1B 0x1F13; P 0x1F1C 0x1F14; P 0x1F1D 0x1F15; P 0x1F28 0x1F20; P 0x1F29 0x1F21; P 0x1F2A 0x1F22;
  P 0x1F2B 0x1F23; P 0x1F2C 0x1F24; P 0x1F2D 0x1F25; P 0x1F2E 0x1F26; P 0x1F2F 0x1F27; P 0x1F38 0x1F30;
  P 0x1F39 0x1F31; P 0x1F3A 0x1F32; P 0x1F3B 0x1F33; P 0x1F3C 0x1F34; P 0x1F3D 0x1F35; P 0x1F3E 0x1F36;
  P 0x1F3F 0x1F37; P 0x1F48 0x1F40; P 0x1F49 0x1F41; P 0x1F4A 0x1F42; P 0x1F4B 0x1F43; P 0x1F4C 0x1F44].
Definition downcase_cases_2 : list (entry Z) := [
  P 0x1F4D 0x1F45; P 0x1F59 0x1F51; P 0x1F5B 0x1F53; P 0x1F5D 0x1F55; P 0x1F5F 0x1F57; P 0x1F68 0x1F60;
  P 0x1F69 0x1F61; P 0x1F6A 0x1F62; P 0x1F6B 0x1F63; P 0x1F6C 0x1F64; P 0x1F6D 0x1F65; P 0x1F6E 0x1F66;
  P 0x1F6F 0x1F67; P 0x1F88 0x1F80; P 0x1F89 0x1F81; P 0x1F8A 0x1F82; P 0x1F8B 0x1F83; P 0x1F8C 0x1F84;
  P 0x1F8D 0x1F85; P 0x1F8E 0x1F86; P 0x1F8F 0x1F87; P 0x1F98 0x1F90; P 0x1F99 0x1F91; P 0x1F9A 0x1F92;
  P 0x1F9B 0x1F93; P 0x1F9C 0x1F94; P 0x1F9D 0x1F95; P 0x1F9E 0x1F96; P 0x1F9F 0x1F97; P 0x1FA8 0x1FA0;
  P 0x1FA9 0x1FA1; P 0x1FAA 0x1FA2; P 0x1FAB 0x1FA3; P 0x1FAC 0x1FA4; P 0x1FAD 0x1FA5; P 0x1FAE 0x1FA6;
  P 0x1FAF 0x1FA7; P 0x1FB8 0x1FB0; P 0x1FB9 0x1FB1; P 0x1FBA 0x1F70; P 0x1FBB 0x1F71; P 0x1FBC 0x1FB3;
  P 0x1FC8 0x1F72; P 0x1FC9 0x1F73; P 0x1FCA 0x1F74; P 0x1FCB 0x1F75; P 0x1FCC 0x1FC3; P 0x1FD8 0x1FD0;
  P 0x1FD9 0x1FD1; P 0x1FDA 0x1F76; P 0x1FDB 0x1F77; P 0x1FE8 0x1FE0; P 0x1FE9 0x1FE1; P 0x1FEA 0x1F7A;
  P 0x1FEB 0x1F7B; P 0x1FEC 0x1FE5; P 0x1FF8 0x1F78; P 0x1FF9 0x1F79; P 0x1FFA 0x1F7C; P 0x1FFB 0x1F7D;
  P 0x1FFC 0x1FF3; P 0x2126 0x3C9; P 0x212A 0x6B; P 0x212B 0xE5; P 0x2132 0x214E; P 0x2160 0x2170; P 0x2161 0x2171;
  P 0x2162 0x2172; P 0x2163 0x2173; P 0x2164 0x2174; P 0x2165 0x2175; P 0x2166 0x2176; P 0x2167 0x2177;
  P 0x2168 0x2178; P 0x2169 0x2179; P 0x216A 0x217A; P 0x216B 0x217B; P 0x216C 0x217C; P 0x216D 0x217D;
  P 0x216E 0x217E; P 0x216F 0x217F; P 0x2183 0x2184; P 0x24B6 0x24D0; P 0x24B7 0x24D1; P 0x24B8 0x24D2;
  P 0x24B9 0x24D3; P 0x24BA 0x24D4; P 0x24BB 0x24D5; P 0x24BC 0x24D6; P 0x24BD 0x24D7; P 0x24BE 0x24D8;
  P 0x24BF 0x24D9; P 0x24C0 0x24DA; P 0x24C1 0x24DB; P 0x24C2 0x24DC; P 0x24C3 0x24DD; P 0x24C4 0x24DE;
  P 0x24C5 0x24DF; P 0x24C6 0x24E0; P 0x24C7 0x24E1; P 0x24C8 0x24E2; P 0x24C9 0x24E3; P 0x24CA 0x24E4;
  P 0x24CB 0x24E5; P 0x24CC 0x24E6; P 0x24CD 0x24E7; P 0x24CE 0x24E8; P 0x24CF 0x24E9; P 0x2C00 0x2C30;
  P 0x2C01 0x2C31; P 0x2C02 0x2C32; P 0x2C03 0x2C33; P 0x2C04 0x2C34; P 0x2C05 0x2C35; P 0x2C06 0x2C36;
  P 0x2C07 0x2C37; P 0x2C08 0x2C38; P 0x2C09 0x2C39; P 0x2C0A 0x2C3A; P 0x2C0B 0x2C3B; P 0x2C0C 0x2C3C;
  P 0x2C0D 0x2C3D; P 0x2C0E 0x2C3E; P 0x2C0F 0x2C3F; P 0x2C10 0x2C40; P 0x2C11 0x2C41; P 0x2C12 0x2C42;
  P 0x2C13 0x2C43; P 0x2C14 0x2C44; P 0x2C15 0x2C45; P 0x2C16 0x2C46; P 0x2C17 0x2C47; P 0x2C18 0x2C48;
  P 0x2C19 0x2C49; P 0x2C1A 0x2C4A; P 0x2C1B 0x2C4B; P 0x2C1C 0x2C4C; P 0x2C1D 0x2C4D; P 0x2C1E 0x2C4E;
  P 0x2C1F 0x2C4F; P 0x2C20 0x2C50; P 0x2C21 0x2C51; P 0x2C22 0x2C52; P 0x2C23 0x2C53; P 0x2C24 0x2C54;
  P 0x2C25 0x2C55; P 0x2C26 0x2C56; P 0x2C27 0x2C57; P 0x2C28 0x2C58; P 0x2C29 0x2C59; P 0x2C2A 0x2C5A;
  P 0x2C2B 0x2C5B; P 0x2C2C 0x2C5C; P 0x2C2D 0x2C5D; P 0x2C2E 0x2C5E; P 0x2C2F 0x2C5F; P 0x2C60 0x2C61;
  P 0x2C62 0x26B; P 0x2C63 0x1D7D; P 0x2C64 0x27D; P 0x2C67 0x2C68; P 0x2C69 0x2C6A; P 0x2C6B 0x2C6C; P 0x2C6D 0x251;
  P 0x2C6E 0x271; P 0x2C6F 0x250; P 0x2C70 0x252; P 0x2C72 0x2C73; P 0x2C75 0x2C76; P 0x2C7E 0x23F; P 0x2C7F 0x240;
  P 0x2C80 0x2C81; P 0x2C82 0x2C83; P 0x2C84 0x2C85; P 0x2C86 0x2C87; P 0x2C88 0x2C89; P 0x2C8A 0x2C8B;
  P 0x2C8C 0x2C8D; P 0x2C8E 0x2C8F; P 0x2C90 0x2C91; P 0x2C92 0x2C93; P 0x2C94 0x2C95; P 0x2C96 0x2C97;
  P 0x2C98 0x2C99; P 0x2C9A 0x2C9B; P 0x2C9C 0x2C9D; P 0x2C9E 0x2C9F; P 0x2CA0 0x2CA1; P 0x2CA2 0x2CA3;
  P 0x2CA4 0x2CA5; P 0x2CA6 0x2CA7; P 0x2CA8 0x2CA9; P 0x2CAA 0x2CAB; P 0x2CAC 0x2CAD; P 0x2CAE 0x2CAF;
  P 0x2CB0 0x2CB1; P 0x2CB2 0x2CB3; P 0x2CB4 0x2CB5; P 0x2CB6 0x2CB7; P 0x2CB8 0x2CB9; P 0x2CBA 0x2CBB;
  P 0x2CBC 0x2CBD; P 0x2CBE 0x2CBF; P 0x2CC0 0x2CC1; P 0x2CC2 0x2CC3; P 0x2CC4 0x2CC5; P 0x2CC6 0x2CC7;
  P 0x2CC8 0x2CC9; P 0x2CCA 0x2CCB; P 0x2CCC 0x2CCD; P 0x2CCE 0x2CCF; P 0x2CD0 0x2CD1; P 0x2CD2 0x2CD3;
  P 0x2CD4 0x2CD5; P 0x2CD6 0x2CD7; P 0x2CD8 0x2CD9; P 0x2CDA 0x2CDB; P 0x2CDC 0x2CDD; P 0x2CDE 0x2CDF;
  P 0x2CE0 0x2CE1; P 0x2CE2 0x2CE3; P 0x2CEB 0x2CEC; P 0x2CED 0x2CEE; P 0x2CF2 0x2CF3; P 0xA640 0xA641;
  P 0xA642 0xA643; P 0xA644 0xA645; P 0xA646 0xA647; P 0xA648 0xA649; P 0xA64A 0xA64B; P 0xA64C 0xA64D;
  P 0xA64E 0xA64F; P 0xA650 0xA651; P 0xA652 0xA653; P 0xA654 0xA655; P 0xA656 0xA657; P 0xA658 0xA659;
  P 0xA65A 0xA65B; P 0xA65C 0xA65D; P 0xA65E 0xA65F; P 0xA660 0xA661; P 0xA662 0xA663; P 0xA664 0xA665;
  P 0xA666 0xA667; P 0xA668 0xA669; P 0xA66A 0xA66B; P 0xA66C 0xA66D; P 0xA680 0xA681; P 0xA682 0xA683;
  P 0xA684 0xA685; P 0xA686 0xA687; P 0xA688 0xA689; P 0xA68A 0xA68B; P 0xA68C 0xA68D; P 0xA68E 0xA68F;
  P 0xA690 0xA691; P 0xA692 0xA693; P 0xA694 0xA695; P 0xA696 0xA697; P 0xA698 0xA699; P 0xA69A 0xA69B;
  P 0xA722 0xA723; P 0xA724 0xA725; P 0xA726 0xA727; P 0xA728 0xA729; P 0xA72A 0xA72B; P 0xA72C 0xA72D;
  P 0xA72E 0xA72F; P 0xA732 0xA733; P 0xA734 0xA735; P 0xA736 0xA737; P 0xA738 0xA739; P 0xA73A 0xA73B;
  P 0xA73C 0xA73D; P 0xA73E 0xA73F; P 0xA740 0xA741; P 0xA742 0xA743; P 0xA744 0xA745; P 0xA746 0xA747;
  P 0xA748 0xA749; P 0xA74A 0xA74B; P 0xA74C 0xA74D; P 0xA74E 0xA74F; P 0xA750 0xA751; P 0xA752 0xA753;
  P 0xA754 0xA755; P 0xA756 0xA757; P 0xA758 0xA759; P 0xA75A 0xA75B; P 0xA75C 0xA75D; P 0xA75E 0xA75F;
  P 0xA760 0xA761; P 0xA762 0xA763; P 0xA764 0xA765; P 0xA766 0xA767; P 0xA768 0xA769; P 0xA76A 0xA76B;
  P 0xA76C 0xA76D; P 0xA76E 0xA76F; P 0xA779 0xA77A; P 0xA77B 0xA77C; P 0xA77D 0x1D79; P 0xA77E 0xA77F;
  P 0xA780 0xA781; P 0xA782 0xA783; P 0xA784 0xA785; P 0xA786 0xA787; P 0xA78B 0xA78C; P 0xA78D 0x265;
  P 0xA790 0xA791; P 0xA792 0xA793; P 0xA796 0xA797; P 0xA798 0xA799; P 0xA79A 0xA79B; P 0xA79C 0xA79D;
  P 0xA79E 0xA79F; P 0xA7A0 0xA7A1; P 0xA7A2 0xA7A3; P 0xA7A4 0xA7A5; P 0xA7A6 0xA7A7; P 0xA7A8 0xA7A9;
  P 0xA7AA 0x266; P 0xA7AB 0x25C; P 0xA7AC 0x261; P 0xA7AD 0x26C; P 0xA7AE 0x26A; P 0xA7B0 0x29E; P 0xA7B1 0x287;
  P 0xA7B2 0x29D; P 0xA7B3 0xAB53; P 0xA7B4 0xA7B5; P 0xA7B6 0xA7B7; P 0xA7B8 0xA7B9; P 0xA7BA 0xA7BB;
  P 0xA7BC 0xA7BD; P 0xA7BE 0xA7BF; P 0xA7C0 0xA7C1; P 0xA7C2 0xA7C3; P 0xA7C4 0xA794; P 0xA7C5 0x282;
  P 0xA7C6 0x1D8E; P 0xA7C7 0xA7C8; P 0xA7C9 0xA7CA; P 0xA7D0 0xA7D1; P 0xA7D6 0xA7D7; P 0xA7D8 0xA7D9;
  P 0xA7F5 0xA7F6; P 0xFF21 0xFF41; P 0xFF22 0xFF42; P 0xFF23 0xFF43; P 0xFF24 0xFF44; P 0xFF25 0xFF45;
  P 0xFF26 0xFF46; P 0xFF27 0xFF47; P 0xFF28 0xFF48; P 0xFF29 0xFF49; P 0xFF2A 0xFF4A; P 0xFF2B 0xFF4B;
  P 0xFF2C 0xFF4C; P 0xFF2D 0xFF4D; P 0xFF2E 0xFF4E; P 0xFF2F 0xFF4F; P 0xFF30 0xFF50; P 0xFF31 0xFF51;
  P 0xFF32 0xFF52; P 0xFF33 0xFF53; P 0xFF34 0xFF54; P 0xFF35 0xFF55; P 0xFF36 0xFF56; P 0xFF37 0xFF57;
  P 0xFF38 0xFF58; P 0xFF39 0xFF59; P 0xFF3A 0xFF5A; P 0x10400 0x10428; P 0x10401 0x10429; P 0x10402 0x1042A;
  P 0x10403 0x1042B; P 0x10404 0x1042C; P 0x10405 0x1042D; P 0x10406 0x1042E; P 0x10407 0x1042F; P 0x10408 0x10430;
  P 0x10409 0x10431; P 0x1040A 0x10432; P 0x1040B 0x10433; P 0x1040C 0x10434; P 0x1040D 0x10435; P 0x1040E 0x10436;
  P 0x1040F 0x10437; P 0x10410 0x10438; P 0x10411 0x10439; P 0x10412 0x1043A; P 0x10413 0x1043B; P 0x10414 0x1043C;
  P 0x10415 0x1043D; P 0x10416 0x1043E; P 0x10417 0x1043F; P 0x10418 0x10440; P 0x10419 0x10441; P 0x1041A 0x10442].
Definition downcase_cases_3 : list (entry Z) := [
  P 0x1041B 0x10443; P 0x1041C 0x10444; P 0x1041D 0x10445; P 0x1041E 0x10446; P 0x1041F 0x10447; P 0x10420 0x10448;
  P 0x10421 0x10449; P 0x10422 0x1044A; P 0x10423 0x1044B; P 0x10424 0x1044C; P 0x10425 0x1044D; P 0x10426 0x1044E;
  P 0x10427 0x1044F; P 0x104B0 0x104D8; P 0x104B1 0x104D9; P 0x104B2 0x104DA; P 0x104B3 0x104DB; P 0x104B4 0x104DC;
  P 0x104B5 0x104DD; P 0x104B6 0x104DE; P 0x104B7 0x104DF; P 0x104B8 0x104E0; P 0x104B9 0x104E1; P 0x104BA 0x104E2;
  P 0x104BB 0x104E3; P 0x104BC 0x104E4; P 0x104BD 0x104E5; P 0x104BE 0x104E6; P 0x104BF 0x104E7; P 0x104C0 0x104E8;
  P 0x104C1 0x104E9; P 0x104C2 0x104EA; P 0x104C3 0x104EB; P 0x104C4 0x104EC; P 0x104C5 0x104ED; P 0x104C6 0x104EE;
  P 0x104C7 0x104EF; P 0x104C8 0x104F0; P 0x104C9 0x104F1; P 0x104CA 0x104F2; P 0x104CB 0x104F3; P 0x104CC 0x104F4;
  P 0x104CD 0x104F5; P 0x104CE 0x104F6; P 0x104CF 0x104F7; P 0x104D0 0x104F8; P 0x104D1 0x104F9; P 0x104D2 0x104FA;
  P 0x104D3 0x104FB; P 0x10570 0x10597; P 0x10571 0x10598; P 0x10572 0x10599; P 0x10573 0x1059A; P 0x10574 0x1059B;
  P 0x10575 0x1059C; P 0x10576 0x1059D; P 0x10577 0x1059E; P 0x10578 0x1059F; P 0x10579 0x105A0; P 0x1057A 0x105A1;
  P 0x1057C 0x105A3; P 0x1057D 0x105A4; P 0x1057E 0x105A5; P 0x1057F 0x105A6; P 0x10580 0x105A7; P 0x10581 0x105A8;
  P 0x10582 0x105A9; P 0x10583 0x105AA; P 0x10584 0x105AB; P 0x10585 0x105AC; P 0x10586 0x105AD; P 0x10587 0x105AE;
  P 0x10588 0x105AF; P 0x10589 0x105B0; P 0x1058A 0x105B1; P 0x1058C 0x105B3; P 0x1058D 0x105B4; P 0x1058E 0x105B5;
  P 0x1058F 0x105B6; P 0x10590 0x105B7; P 0x10591 0x105B8; P 0x10592 0x105B9; P 0x10594 0x105BB; P 0x10595 0x105BC;
  P 0x10C80 0x10CC0; P 0x10C81 0x10CC1; P 0x10C82 0x10CC2; P 0x10C83 0x10CC3; P 0x10C84 0x10CC4; P 0x10C85 0x10CC5;
  P 0x10C86 0x10CC6; P 0x10C87 0x10CC7; P 0x10C88 0x10CC8; P 0x10C89 0x10CC9; P 0x10C8A 0x10CCA; P 0x10C8B 0x10CCB;
  P 0x10C8C 0x10CCC; P 0x10C8D 0x10CCD; P 0x10C8E 0x10CCE; P 0x10C8F 0x10CCF; P 0x10C90 0x10CD0; P 0x10C91 0x10CD1;
  P 0x10C92 0x10CD2; P 0x10C93 0x10CD3; P 0x10C94 0x10CD4; P 0x10C95 0x10CD5; P 0x10C96 0x10CD6; P 0x10C97 0x10CD7;
  P 0x10C98 0x10CD8; P 0x10C99 0x10CD9; P 0x10C9A 0x10CDA; P 0x10C9B 0x10CDB; P 0x10C9C 0x10CDC; P 0x10C9D 0x10CDD;
  P 0x10C9E 0x10CDE; P 0x10C9F 0x10CDF; P 0x10CA0 0x10CE0; P 0x10CA1 0x10CE1; P 0x10CA2 0x10CE2; P 0x10CA3 0x10CE3;
  P 0x10CA4 0x10CE4; P 0x10CA5 0x10CE5; P 0x10CA6 0x10CE6; P 0x10CA7 0x10CE7; P 0x10CA8 0x10CE8; P 0x10CA9 0x10CE9;
  P 0x10CAA 0x10CEA; P 0x10CAB 0x10CEB; P 0x10CAC 0x10CEC; P 0x10CAD 0x10CED; P 0x10CAE 0x10CEE; P 0x10CAF 0x10CEF;
  P 0x10CB0 0x10CF0; P 0x10CB1 0x10CF1; P 0x10CB2 0x10CF2; P 0x118A0 0x118C0; P 0x118A1 0x118C1; P 0x118A2 0x118C2;
  P 0x118A3 0x118C3; P 0x118A4 0x118C4; P 0x118A5 0x118C5; P 0x118A6 0x118C6; P 0x118A7 0x118C7; P 0x118A8 0x118C8;
  P 0x118A9 0x118C9; P 0x118AA 0x118CA; P 0x118AB 0x118CB; P 0x118AC 0x118CC; P 0x118AD 0x118CD; P 0x118AE 0x118CE;
  P 0x118AF 0x118CF; P 0x118B0 0x118D0; P 0x118B1 0x118D1; P 0x118B2 0x118D2; P 0x118B3 0x118D3; P 0x118B4 0x118D4;
  P 0x118B5 0x118D5; P 0x118B6 0x118D6; P 0x118B7 0x118D7; P 0x118B8 0x118D8; P 0x118B9 0x118D9; P 0x118BA 0x118DA;
  P 0x118BB 0x118DB; P 0x118BC 0x118DC; P 0x118BD 0x118DD; P 0x118BE 0x118DE; P 0x118BF 0x118DF; P 0x16E40 0x16E60;
  P 0x16E41 0x16E61; P 0x16E42 0x16E62; P 0x16E43 0x16E63; P 0x16E44 0x16E64; P 0x16E45 0x16E65; P 0x16E46 0x16E66;
  P 0x16E47 0x16E67; P 0x16E48 0x16E68; P 0x16E49 0x16E69; P 0x16E4A 0x16E6A; P 0x16E4B 0x16E6B; P 0x16E4C 0x16E6C;
  P 0x16E4D 0x16E6D; P 0x16E4E 0x16E6E; P 0x16E4F 0x16E6F; P 0x16E50 0x16E70; P 0x16E51 0x16E71; P 0x16E52 0x16E72;
  P 0x16E53 0x16E73; P 0x16E54 0x16E74; P 0x16E55 0x16E75; P 0x16E56 0x16E76; P 0x16E57 0x16E77; P 0x16E58 0x16E78;
  P 0x16E59 0x16E79; P 0x16E5A 0x16E7A; P 0x16E5B 0x16E7B; P 0x16E5C 0x16E7C; P 0x16E5D 0x16E7D; P 0x16E5E 0x16E7E;
  P 0x16E5F 0x16E7F; P 0x1E900 0x1E922; P 0x1E901 0x1E923; P 0x1E902 0x1E924; P 0x1E903 0x1E925; P 0x1E904 0x1E926;
  P 0x1E905 0x1E927; P 0x1E906 0x1E928; P 0x1E907 0x1E929; P 0x1E908 0x1E92A; P 0x1E909 0x1E92B; P 0x1E90A 0x1E92C;
  P 0x1E90B 0x1E92D; P 0x1E90C 0x1E92E; P 0x1E90D 0x1E92F; P 0x1E90E 0x1E930; P 0x1E90F 0x1E931; P 0x1E910 0x1E932;
  P 0x1E911 0x1E933; P 0x1E912 0x1E934; P 0x1E913 0x1E935; P 0x1E914 0x1E936; P 0x1E915 0x1E937; P 0x1E916 0x1E938;
  P 0x1E917 0x1E939; P 0x1E918 0x1E93A; P 0x1E919 0x1E93B; P 0x1E91A 0x1E93C; P 0x1E91B 0x1E93D; P 0x1E91C 0x1E93E;
  P 0x1E91D 0x1E93F; P 0x1E91E 0x1E940; P 0x1E91F 0x1E941; P 0x1E920 0x1E942; P 0x1E921 0x1E943].
(** unicode/downcase.hpp: the fourteenth field where it is not empty *)
Definition downcase_cases : list (entry Z) := downcase_cases_0 ++ downcase_cases_1 ++ downcase_cases_2 ++ downcase_cases_3.

(** The lines <..., First> and <..., Last> with what Unicode means by them: all code points
    from the one to the other have this category *)
Definition ranges : list (entry category) := [
  R 0x3400 0x4DBF Lo;
  R 0x4E00 0x9FFF Lo;
  R 0xAC00 0xD7A3 Lo;
  R 0xD800 0xDB7F Cs;
  R 0xDB80 0xDBFF Cs;
  R 0xDC00 0xDFFF Cs;
  R 0xE000 0xF8FF Co;
  R 0x17000 0x187F7 Lo;
  R 0x18D00 0x18D08 Lo;
  R 0x20000 0x2A6DF Lo;
  R 0x2A700 0x2B739 Lo;
  R 0x2B740 0x2B81D Lo;
  R 0x2B820 0x2CEA1 Lo;
  R 0x2CEB0 0x2EBE0 Lo;
  R 0x2EBF0 0x2EE5D Lo;
  R 0x30000 0x3134A Lo;
  R 0x31350 0x323AF Lo;
  R 0xF0000 0xFFFFD Co;
  R 0x100000 0x10FFFD Co].
