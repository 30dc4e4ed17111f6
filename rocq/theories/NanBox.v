(** Model of include/meevax/memory/nan_boxing_pointer.hpp.

    A cell is the 64-bit word [data] (hpp:55), represented as an [N] below
    2^64.  [object] instantiates the template with
    <pair, bool, small_integer, float, character, instruction>
    (include/meevax/kernel/object.hpp:50).  Values of those types are
    represented by what std::bit_cast observes: small_integer is a [Z] in the
    int32 range, float/character/instruction are their 32-bit patterns, double
    is its 64-bit pattern, a pointer is its address. *)
From Coq Require Import NArith ZArith Bool Lia.
Open Scope N_scope.

(** hpp:57-63, the masks *)
Definition mask_exponent  : N := 0x7FF0000000000000.
Definition mask_quiet     : N := 0x0008000000000000.
Definition mask_signature : N := 0x7FFF000000000000.
Definition mask_payload   : N := 0x0000FFFFFFFFFFFF.

(** The static type of a stored value (template parameter of is<U>/as<U>). *)
Inductive tag := TBool | TInt | TFloat | TChar | TInstr | TPtr | TNull | TDouble.

(** A value together with its static type. *)
Inductive value :=
| VBool   (b : bool)
| VInt    (z : Z)      (* small_integer, int32 *)
| VFloat  (bits : N)   (* float, 32-bit pattern *)
| VChar   (cp : N)     (* character, 32-bit code point *)
| VInstr  (code : N)   (* instruction, 32-bit enumerator *)
| VPtr    (addr : N)   (* pair * *)
| VNull                (* nullptr *)
| VDouble (bits : N).  (* double, 64-bit pattern *)

(** What the C++ types can hold.  Addresses are user-space canonical
    addresses (collector.cpp:24-28 relies on the same fact); the constructor
    from pointer asserts non-null (hpp:96), which plays no role here. *)
Definition representable (v : value) : Prop :=
  match v with
  | VBool _ => True
  | VInt z => (-2^31 <= z < 2^31)%Z
  | VFloat b | VChar b | VInstr b => b < 2^32
  | VPtr a => a < 2^48
  | VNull => True
  | VDouble b => b < 2^64
  end.

Definition tag_of (v : value) : tag :=
  match v with
  | VBool _ => TBool | VInt _ => TInt | VFloat _ => TFloat | VChar _ => TChar
  | VInstr _ => TInstr | VPtr _ => TPtr | VNull => TNull | VDouble _ => TDouble
  end.

(** hpp:65-80 signature_of *)
Definition signature_of (t : tag) : N :=
  match t with
  | TDouble => 0
  | TBool   => 0x7FF9000000000000
  | TInt    => 0x7FFA000000000000
  | TFloat  => 0x7FFB000000000000
  | TChar   => 0x7FFC000000000000
  | TInstr  => 0x7FFD000000000000
  | TPtr    => 0x7FFE000000000000
  | TNull   => 0x7FFF000000000000
  end.

(** std::isnan on a 64-bit pattern (IEEE 754 binary64: exponent all ones and
    non-zero fraction), used by canonicalize, hpp:142-145. *)
Definition is_nan (b : N) : bool :=
  (N.land b mask_exponent =? mask_exponent) && negb (N.land b 0x000FFFFFFFFFFFFF =? 0).

(** hpp:142-145 canonicalize *)
Definition canonicalize (b : N) : N :=
  if is_nan b then N.lor mask_exponent mask_quiet else b.

(** std::bit_cast<uint32_t>(int32_t) and its inverse (two's complement). *)
Definition int32_bits (z : Z) : N := Z.to_N (z mod 2^32).
Definition bits_int32 (n : N) : Z :=
  if n <? 2^31 then Z.of_N n else (Z.of_N n - 2^32)%Z.

(** hpp:84-101 constructors (and the identical reset overloads 184-204). *)
Definition box (v : value) : N :=
  match v with
  | VDouble b => canonicalize b
  | VBool b   => N.lor (signature_of TBool) (if b then 1 else 0)
  | VInt z    => N.lor (signature_of TInt) (int32_bits z)
  | VFloat b  => N.lor (signature_of TFloat) b
  | VChar b   => N.lor (signature_of TChar) b
  | VInstr b  => N.lor (signature_of TInstr) b
  | VPtr a    => N.lor (signature_of TPtr) a
  | VNull     => signature_of TNull
  end.

(** hpp:206-214 payload, signature *)
Definition payload (d : N) : N := N.land d mask_payload.
Definition signature (d : N) : N := N.land d mask_signature.

(** hpp:216-233 type (a switch on signature()), also 159-177 is<U>. *)
Definition type_of (d : N) : tag :=
  let s := signature d in
  if s =? signature_of TBool then TBool else
  if s =? signature_of TInt then TInt else
  if s =? signature_of TFloat then TFloat else
  if s =? signature_of TChar then TChar else
  if s =? signature_of TInstr then TInstr else
  if s =? signature_of TPtr then TPtr else
  if s =? signature_of TNull then TNull else TDouble.

(** hpp:129-140 as<U>: static_cast of the payload to the unsigned type of the
    size of U, then bit_cast.  bool: 8 bits; int/float/char/instruction: 32
    bits; pointer: 64 bits; double: the whole word.  as<nullptr_t> is never
    used; it carries no information. *)
Definition as_ (t : tag) (d : N) : value :=
  match t with
  | TDouble => VDouble d
  | TBool   => VBool (N.testbit (payload d mod 2^8) 0)
  | TInt    => VInt (bits_int32 (payload d mod 2^32))
  | TFloat  => VFloat (payload d mod 2^32)
  | TChar   => VChar (payload d mod 2^32)
  | TInstr  => VInstr (payload d mod 2^32)
  | TPtr    => VPtr (payload d)
  | TNull   => VNull
  end.

(** hpp:147-157 get: the address if the cell holds a pointer, else nullptr. *)
Definition get (d : N) : option N :=
  if signature d =? signature_of TPtr then Some (payload d) else None.

(** hpp:124-127 explicit operator bool *)
Definition truthy (d : N) : bool := signature d =? signature_of TPtr.

(** hpp:290 operator == (this is Scheme's eq?, comparator.hpp:24-27) *)
Definition cell_eq (x y : N) : bool := x =? y.

(** ** Lemmas *)

Lemma lor_disjoint_add k a : a < 2^48 -> N.lor (k * 2^48) a = k * 2^48 + a.
Proof.
  intros Ha.
  rewrite <- N.shiftl_mul_pow2.
  symmetry.
  rewrite <- N.lxor_lor, N.add_nocarry_lxor; try reflexivity;
  apply N.bits_inj; intros i; rewrite N.land_spec, N.bits_0;
  destruct (N.lt_ge_cases i 48) as [H|H].
  - rewrite N.shiftl_spec_low by lia. reflexivity.
  - rewrite (N.bits_above_log2 a), andb_false_r; [reflexivity|].
    destruct (N.eq_dec a 0) as [->|Ha0]; [simpl; lia|].
    apply N.log2_lt_pow2 in Ha; lia.
  - rewrite N.shiftl_spec_low by lia. reflexivity.
  - rewrite (N.bits_above_log2 a), andb_false_r; [reflexivity|].
    destruct (N.eq_dec a 0) as [->|Ha0]; [simpl; lia|].
    apply N.log2_lt_pow2 in Ha; lia.
Qed.

Lemma payload_mod d : payload d = d mod 2^48.
Proof. unfold payload. change mask_payload with (N.ones 48). apply N.land_ones. Qed.

Lemma signature_div d : signature d = ((d / 2^48) mod 2^15) * 2^48.
Proof.
  unfold signature.
  rewrite <- (N.land_ones (d / 2^48) 15), <- N.shiftl_mul_pow2, <- N.shiftr_div_pow2.
  apply N.bits_inj; intros i.
  destruct (N.lt_ge_cases i 48) as [H|H].
  - rewrite N.shiftl_spec_low by lia. rewrite N.land_spec.
    change mask_signature with (N.shiftl (N.ones 15) 48).
    rewrite N.shiftl_spec_low by lia. apply andb_false_r.
  - rewrite N.shiftl_spec_high' by lia. rewrite !N.land_spec.
    change mask_signature with (N.shiftl (N.ones 15) 48).
    rewrite N.shiftl_spec_high' by lia. rewrite N.shiftr_spec'.
    replace (i - 48 + 48) with i by lia. reflexivity.
Qed.

Lemma payload_sum k a : a < 2^48 -> payload (k * 2^48 + a) = a.
Proof.
  intros Ha. rewrite payload_mod.
  rewrite N.add_comm, N.mod_add by discriminate. apply N.mod_small; exact Ha.
Qed.

Lemma signature_sum k a : a < 2^48 -> k < 2^15 -> signature (k * 2^48 + a) = k * 2^48.
Proof.
  intros Ha Hk. rewrite signature_div.
  rewrite N.add_comm, N.div_add by discriminate.
  rewrite (N.div_small a) by exact Ha. rewrite N.add_0_l, N.mod_small by exact Hk. reflexivity.
Qed.

(** The index k of each non-double signature: signature_of t = k * 2^48. *)
Definition sig_index (t : tag) : N :=
  match t with
  | TDouble => 0 | TBool => 0x7FF9 | TInt => 0x7FFA | TFloat => 0x7FFB
  | TChar => 0x7FFC | TInstr => 0x7FFD | TPtr => 0x7FFE | TNull => 0x7FFF
  end.

Lemma signature_of_index t : signature_of t = sig_index t * 2^48.
Proof. destruct t; reflexivity. Qed.

Lemma sig_index_lt t : sig_index t < 2^15.
Proof. destruct t; reflexivity. Qed.

Definition payload_of (v : value) : N :=
  match v with
  | VBool b => if b then 1 else 0
  | VInt z => int32_bits z
  | VFloat b | VChar b | VInstr b => b
  | VPtr a => a
  | VNull => 0
  | VDouble _ => 0
  end.

Lemma int32_bits_lt z : int32_bits z < 2^32.
Proof.
  unfold int32_bits.
  assert (H := Z.mod_pos_bound z (2^32) ltac:(reflexivity)).
  change (2^32) with (Z.to_N (2^32)). apply Z2N.inj_lt; lia.
Qed.

Lemma payload_of_lt v : representable v -> payload_of v < 2^48.
Proof.
  destruct v as [b|z|b|b|b|a| |b]; simpl payload_of; intros H; simpl in H;
    try (eapply N.lt_trans; [exact H| reflexivity]); try exact H; try reflexivity.
  - destruct b; reflexivity.
  - eapply N.lt_trans; [apply int32_bits_lt | reflexivity].
Qed.

Lemma box_sum v : representable v -> tag_of v <> TDouble ->
  box v = sig_index (tag_of v) * 2^48 + payload_of v.
Proof.
  intros Hr Ht.
  assert (Hp := payload_of_lt v Hr).
  destruct v; try (exfalso; apply Ht; reflexivity); unfold box, tag_of;
    rewrite signature_of_index;
    first [apply (lor_disjoint_add _ _ Hp) | symmetry; apply N.add_0_r].
Qed.

Lemma type_of_nondouble t d : t <> TDouble -> signature d = signature_of t -> type_of d = t.
Proof. intros Ht H. unfold type_of. rewrite H. destruct t; try congruence; reflexivity. Qed.

Lemma is_nan_spec b : b < 2^64 ->
  (0x7FF9 <= (b / 2^48) mod 2^15) -> is_nan b = true.
Proof.
  intros Hb Hs.
  unfold is_nan.
  assert (H52 : N.land b mask_exponent = ((b / 2^52) mod 2^11) * 2^52).
  { rewrite <- (N.land_ones (b / 2^52) 11), <- N.shiftl_mul_pow2, <- N.shiftr_div_pow2.
    apply N.bits_inj; intros i.
    destruct (N.lt_ge_cases i 52) as [H|H].
    - rewrite N.shiftl_spec_low by lia. rewrite N.land_spec.
      change mask_exponent with (N.shiftl (N.ones 11) 52).
      rewrite N.shiftl_spec_low by lia. apply andb_false_r.
    - rewrite N.shiftl_spec_high' by lia. rewrite !N.land_spec.
      change mask_exponent with (N.shiftl (N.ones 11) 52).
      rewrite N.shiftl_spec_high' by lia. rewrite N.shiftr_spec'.
      replace (i - 52 + 52) with i by lia. reflexivity. }
  rewrite H52. change 0x000FFFFFFFFFFFFF with (N.ones 52). rewrite N.land_ones.
  assert (Hdiv : b / 2^52 = (b / 2^48) / 2^4).
  { rewrite N.div_div by discriminate. reflexivity. }
  set (q := b / 2^48) in *.
  assert (Hq : q = 0x8000 * (q / 2^15) + q mod 2^15) by (apply N.div_mod; discriminate).
  assert (Hm : q mod 2^15 < 2^15) by (apply N.mod_lt; discriminate).
  set (m := q mod 2^15) in *. set (r := q / 2^15) in *.
  assert (Hq4 : q / 2^4 = 0x800 * r + m / 2^4).
  { rewrite Hq. change 0x8000 with (0x800 * 2^4). rewrite <- N.mul_assoc, (N.mul_comm (2^4)), N.mul_assoc.
    rewrite N.add_comm, N.div_add by discriminate. lia. }
  assert (Hm4 : m / 2^4 = 0x7FF).
  { apply N.le_antisymm.
    - apply N.lt_succ_r. apply N.div_lt_upper_bound; [discriminate|]. exact Hm.
    - apply N.div_le_lower_bound; [discriminate|]. lia. }
  assert (He : (b / 2^52) mod 2^11 = 0x7FF).
  { rewrite Hdiv, Hq4, Hm4. change (2^11) with 0x800.
    rewrite N.add_comm, (N.mul_comm 0x800), N.mod_add by discriminate. reflexivity. }
  rewrite He. apply andb_true_intro; split; [reflexivity|].
  apply negb_true_iff, N.eqb_neq. intros H0.
  (* fraction zero would force m to be a multiple of 16 *)
  assert (Hb52 : b = 2^52 * (b / 2^52)).
  { rewrite (N.div_mod b (2^52)) at 1 by discriminate. rewrite H0. lia. }
  assert (Hq2 : q = 2^4 * (b / 2^52)).
  { unfold q. rewrite Hb52 at 1. change (2^52) with (2^48 * 2^4) at 1.
    rewrite <- N.mul_assoc, N.mul_comm, N.div_mul by discriminate. reflexivity. }
  rewrite Hdiv, Hq4, Hm4 in Hq2. change (2^4) with 16 in *. lia.
Qed.

Lemma canonicalize_type b : b < 2^64 -> type_of (canonicalize b) = TDouble.
Proof.
  intros Hb. unfold canonicalize. destruct (is_nan b) eqn:Hn; [reflexivity|].
  assert (Hs : (b / 2^48) mod 2^15 < 0x7FF9).
  { destruct (N.lt_ge_cases ((b / 2^48) mod 2^15) 0x7FF9) as [H|H]; [exact H|].
    rewrite (is_nan_spec b Hb H) in Hn. discriminate. }
  unfold type_of. rewrite signature_div.
  set (m := (b / 2^48) mod 2^15) in *.
  assert (Hne : forall t, t <> TDouble -> (m * 2^48 =? signature_of t) = false).
  { intros t Ht. apply N.eqb_neq. rewrite signature_of_index. intros E.
    apply N.mul_cancel_r in E; [|discriminate].
    rewrite E in Hs. destruct t; try congruence; vm_compute in Hs; discriminate. }
  rewrite !Hne by discriminate. reflexivity.
Qed.

Lemma bits_int32_bits z : (-2^31 <= z < 2^31)%Z -> bits_int32 (int32_bits z) = z.
Proof.
  intros Hz. unfold bits_int32, int32_bits.
  assert (Hb := Z.mod_pos_bound z (2^32) ltac:(reflexivity)).
  assert (Hid : Z.of_N (Z.to_N (z mod 2^32)) = (z mod 2^32)%Z) by (apply Z2N.id; lia).
  destruct (N.ltb_spec (Z.to_N (z mod 2^32)) (2^31)) as [H|H].
  - rewrite Hid. assert ((z mod 2^32 < 2^31)%Z) by (rewrite <- Hid; change (2^31)%Z with (Z.of_N (2^31)); lia).
    destruct (Z.lt_ge_cases z 0).
    + rewrite <- (Z_mod_plus_full z 1 (2^32)) in *. rewrite Z.mod_small in *; lia.
    + rewrite Z.mod_small; lia.
  - rewrite Hid. assert ((2^31 <= z mod 2^32)%Z) by (rewrite <- Hid; change (2^31)%Z with (Z.of_N (2^31)); lia).
    destruct (Z.lt_ge_cases z 0).
    + rewrite <- (Z_mod_plus_full z 1 (2^32)) in *. rewrite Z.mod_small in *; lia.
    + rewrite Z.mod_small in *; lia.
Qed.

(** What a reader should see after storing [v]: itself, except that every NaN
    is replaced by the canonical quiet NaN. *)
Definition stored (v : value) : value :=
  match v with VDouble b => VDouble (canonicalize b) | _ => v end.

Lemma box_type v : representable v -> type_of (box v) = tag_of v.
Proof.
  intros Hr. destruct (tag_of v) eqn:Ht; cycle 7.
  { destruct v; try discriminate. apply canonicalize_type. exact Hr. }
  all: apply type_of_nondouble; [discriminate|];
    rewrite box_sum by (try exact Hr; rewrite Ht; discriminate);
    rewrite Ht, signature_of_index;
    apply signature_sum; [apply payload_of_lt; exact Hr | reflexivity].
Qed.

Lemma box_payload v : representable v -> tag_of v <> TDouble -> payload (box v) = payload_of v.
Proof.
  intros Hr Ht. rewrite box_sum by assumption.
  apply payload_sum, payload_of_lt; exact Hr.
Qed.

Lemma box_as v : representable v -> as_ (tag_of v) (box v) = stored v.
Proof.
  intros Hr.
  destruct v as [b|z|b|b|b|a| |b]; unfold as_, tag_of, stored;
    try rewrite box_payload by (try exact Hr; discriminate); simpl payload_of; try reflexivity.
  - destruct b; reflexivity.
  - rewrite N.mod_small by apply int32_bits_lt. rewrite bits_int32_bits by exact Hr. reflexivity.
  - rewrite N.mod_small by exact Hr. reflexivity.
  - rewrite N.mod_small by exact Hr. reflexivity.
  - rewrite N.mod_small by exact Hr. reflexivity.
Qed.

Lemma canonicalize_lt b : b < 2^64 -> canonicalize b < 2^64.
Proof. intros H. unfold canonicalize. destruct (is_nan b); [reflexivity | exact H]. Qed.

Lemma box_lt v : representable v -> box v < 2^64.
Proof.
  intros Hr. destruct (tag_of v) eqn:Ht; cycle 7.
  { destruct v; try discriminate. apply canonicalize_lt. exact Hr. }
  all: rewrite box_sum by (try exact Hr; rewrite Ht; discriminate); rewrite Ht;
    assert (Hp := payload_of_lt v Hr); change (2^64) with (2^16 * 2^48);
    change (2^48) with 281474976710656 in *; change (2^16) with 65536; simpl sig_index; lia.
Qed.

Lemma box_eq_stored v w : representable v -> representable w ->
  (box v = box w <-> stored v = stored w).
Proof.
  intros Hv Hw. split; intros H.
  - assert (Ht : tag_of v = tag_of w) by (rewrite <- !box_type by assumption; congruence).
    rewrite <- (box_as v Hv), <- (box_as w Hw), Ht, H. reflexivity.
  - destruct v, w; simpl in H; try discriminate; try reflexivity; injection H as H; subst;
      try reflexivity; exact H.
Qed.

Lemma get_box v : representable v ->
  get (box v) = match v with VPtr a => Some a | _ => None end.
Proof.
  intros Hr. unfold get.
  destruct (tag_of v) eqn:Ht; cycle 7.
  { destruct v; try discriminate.
    assert (H := canonicalize_type bits Hr). unfold type_of in H. simpl box.
    destruct (signature (canonicalize bits) =? signature_of TPtr) eqn:E; [|reflexivity].
    apply N.eqb_eq in E. rewrite E in H. discriminate. }
  all: rewrite box_payload by (try exact Hr; rewrite Ht; discriminate);
    rewrite box_sum by (try exact Hr; rewrite Ht; discriminate); rewrite Ht;
    rewrite signature_sum by (try (apply payload_of_lt; exact Hr); reflexivity);
    destruct v; try discriminate; reflexivity.
Qed.

Lemma store_then_load v : representable v ->
  type_of (box v) = tag_of v /\ as_ (type_of (box v)) (box v) = stored v /\ box v < 2^64.
Proof.
  intros H. split; [apply box_type; exact H|]. split; [|apply box_lt; exact H].
  rewrite box_type by exact H. apply box_as; exact H.
Qed.

Lemma eq_iff_same_value v w : representable v -> representable w ->
  (cell_eq (box v) (box w) = true <-> stored v = stored w).
Proof. intros Hv Hw. unfold cell_eq. rewrite N.eqb_eq. apply box_eq_stored; assumption. Qed.

Lemma get_is_pointer v : representable v ->
  get (box v) = match v with VPtr a => Some a | _ => None end /\
  truthy (box v) = match v with VPtr _ => true | _ => false end.
Proof.
  intros H. assert (Hg := get_box v H). split; [exact Hg|].
  unfold truthy. unfold get in Hg.
  destruct (signature (box v) =? signature_of TPtr); destruct v; congruence.
Qed.
