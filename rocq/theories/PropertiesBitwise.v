(** Properties C12 (bitwise procedures and SRFI 151), C14 (SRFI 141),
    C15 and C47 (numbers as text), C48 (SRFI 143 shifts). *)
From Coq Require Import ZArith QArith List Bool Lia.
From Verif Require Import Number NumberProofs Bitwise BitwiseProofs Srfi151Proofs Srfi141 NumberText.
Import ListNotations.
Open Scope Z_scope.

(** ** C12.  [gives o z]: the outcome is an exact integer object denoting z;
    [bits_are o f]: one whose bit i is f i for every i.  [Z.testbit] is the
    infinite two's complement reading. *)
Theorem C12_logic : forall x y a b, is_int x a -> is_int y b ->
  gives (b_not x) (Z.lnot a) /\ gives (b_and x y) (Z.land a b) /\ gives (b_ior x y) (Z.lor a b) /\ gives (b_xor x y) (Z.lxor a b).
Proof. exact (fun x y a b Hx Hy => conj (not_ok x a Hx) (conj (and_ok x y a b Hx Hy) (conj (ior_ok x y a b Hx Hy) (xor_ok x y a b Hx Hy)))). Qed.
Print Assumptions C12_logic.
Theorem C12_nary : forall xs zs, Forall2 is_int xs zs ->
  bits_are (s_and xs) (fun i => forallb (fun z => Z.testbit z i) zs) /\
  bits_are (s_ior xs) (fun i => existsb (fun z => Z.testbit z i) zs) /\
  bits_are (s_xor xs) (fun i => fold_right xorb false (map (fun z => Z.testbit z i) zs)).
Proof.
  intros xs zs H. split; [|split]; (eexists; split; [eapply ofold_ok; [|left; reflexivity|exact H]|]).
  - exact and_ok.
  - intros i Hi. rewrite fold_land, Z.bits_m1 by exact Hi. reflexivity.
  - exact ior_ok.
  - intros i Hi. rewrite fold_lor, Z.testbit_0_l. reflexivity.
  - exact xor_ok.
  - intros i Hi. rewrite fold_lxor, Z.testbit_0_l, xorb_false_l. reflexivity.
Qed.
Print Assumptions C12_nary.
(** Full statement: gives (b_shift x c) (Z.shiftl n k) for all k ([Z.shiftl] by
    a negative count shifts right and rounds down). *)
Theorem C12_shift_partial : forall x c n k, is_int x n -> is_int c k ->
  (-2^31 < k < 2^31 /\ (-64 < k \/ exists z, x = Large z)) -> gives (b_shift x c) (Z.shiftl n k).
Proof. exact shift_int. Qed.
Print Assumptions C12_shift_partial.
Theorem C12_count : forall x z w, valid x -> is_int x z -> magnitude_bits z < 2^(Z.of_nat w) -> Z.of_nat w < 2^31 ->
  gives (b_count x) (ones_below (magnitude_bits z) w).
Proof. exact count_int. Qed.
Print Assumptions C12_count.
(** Full statement: without x <> Large (-1).  The width of n is the least w such
    that n (or its complement, if negative) is below 2^w. *)
Theorem C12_width_partial : forall x z, is_int x z -> x <> Large (-1) ->
  exists w, gives (b_width x) w /\ 0 <= w /\ magnitude_bits z < 2^w /\ (forall v, 0 <= v < w -> 2^v <= magnitude_bits z).
Proof. exact width_int. Qed.
Print Assumptions C12_width_partial.
Theorem C12_refuted :
  (* undefined behaviour: (arithmetic-shift 1 -64) *)
  (forall z k, -2^31 <= k <= -64 -> b_shift (Small z) (Small k) = Crash) /\
  (* the count wraps modulo 2^32: (arithmetic-shift 1 4294967296) is 1 *)
  b_shift (Small 1) (Large (2^32)) = Ok (Small 1) /\
  (* the large integer -1, for example (- 4294967296 4294967297), has width 1 *)
  (n_sub (Large (2^32)) (Large (2^32 + 1)) = Large (-1) /\ b_width (Large (-1)) = Ok (Small 1) /\ b_width (Small (-1)) = Ok (Small 0)) /\
  (* (bit-field 1 64 65) *)
  bit_field (Small 1) (Small 64) (Small 65) = Crash /\
  (* (bit-field-rotate 1 0 3 3) divides by zero *)
  bit_field_rotate (Small 1) (Small 0) (Small 3) (Small 3) = Crash.
Proof.
  split; [|vm_compute; auto 8].
  intros z k Hk. unfold b_shift. cbn [cast_small obind bit_shift].
  replace (k <? 0) with true by lia. destruct (k =? -2^31); [reflexivity|]. replace (- k <? 64) with false by lia. reflexivity.
Qed.
Print Assumptions C12_refuted.

(** *** SRFI 151 *)
Theorem C12_srfi151_logic : forall x y a b, is_int x a -> is_int y b ->
  bits_are (bitwise_nand x y) (fun i => negb (Z.testbit a i && Z.testbit b i)) /\
  bits_are (bitwise_nor x y) (fun i => negb (Z.testbit a i || Z.testbit b i)) /\
  bits_are (bitwise_andc1 x y) (fun i => negb (Z.testbit a i) && Z.testbit b i) /\
  bits_are (bitwise_andc2 x y) (fun i => Z.testbit a i && negb (Z.testbit b i)) /\
  bits_are (bitwise_orc1 x y) (fun i => negb (Z.testbit a i) || Z.testbit b i) /\
  bits_are (bitwise_orc2 x y) (fun i => Z.testbit a i || negb (Z.testbit b i)).
Proof.
  exact (fun x y a b Hx Hy => conj (nand_ok x y a b Hx Hy) (conj (nor_ok x y a b Hx Hy) (conj (andc1_ok x y a b Hx Hy)
    (conj (andc2_ok x y a b Hx Hy) (conj (orc1_ok x y a b Hx Hy) (orc2_ok x y a b Hx Hy)))))).
Qed.
Print Assumptions C12_srfi151_logic.
Theorem C12_srfi151_eqv : forall xs zs, Forall2 is_int xs zs ->
  bits_are (bitwise_eqv xs) (fun i => fold_left Bool.eqb (map (fun z => Z.testbit z i) zs) true).
Proof. exact eqv_ok. Qed.
Print Assumptions C12_srfi151_eqv.
Theorem C12_srfi151_if : forall m x y k a b, is_int m k -> is_int x a -> is_int y b ->
  bits_are (bitwise_if m x y) (fun i => if Z.testbit k i then Z.testbit a i else Z.testbit b i).
Proof. exact if_ok. Qed.
Print Assumptions C12_srfi151_if.
Theorem C12_srfi151_bits : forall idx x k n, is_int idx k -> is_int x n -> 0 <= k < 2^31 ->
  bit_set idx x = Ok (Z.testbit n k) /\
  forall b, bits_are (copy_bit idx x b) (fun i => if i =? k then b else Z.testbit n i).
Proof. exact (fun idx x k n H1 H2 H3 => conj (bit_set_ok idx x k n H1 H2 H3) (fun b => copy_bit_ok idx x k n b H1 H2 H3)). Qed.
Print Assumptions C12_srfi151_bits.
Theorem C12_srfi151_any_bit_set : forall t x m n, is_int t m -> is_int x n ->
  exists b, any_bit_set t x = Ok b /\ (b = true <-> exists i, 0 <= i /\ Z.testbit m i = true /\ Z.testbit n i = true).
Proof. exact any_bit_set_ok. Qed.
Print Assumptions C12_srfi151_any_bit_set.
Theorem C12_srfi151_swap : forall p q x j k n, is_int p j -> is_int q k -> is_int x n -> 0 <= j < 2^31 -> 0 <= k < 2^31 ->
  bits_are (bit_swap p q x) (fun i => if i =? j then Z.testbit n k else if i =? k then Z.testbit n j else Z.testbit n i).
Proof. exact bit_swap_ok. Qed.
Print Assumptions C12_srfi151_swap.
(** Fields s .. e-1.  Operations that shift the number right need s < 64 or a
    large integer (see C12_refuted). *)
Theorem C12_srfi151_field_partial : forall x st en n s e, is_int x n -> is_int st s -> is_int en e ->
  (0 <= s /\ s <= e /\ e < 2^31) -> (s < 64 \/ exists z, x = Large z) ->
  bits_are (bit_field x st en) (fun i => (i <? e - s) && Z.testbit n (i + s)) /\
  (exists b, bit_field_any x st en = Ok b /\ (b = true <-> exists i, s <= i < e /\ Z.testbit n i = true)) /\
  (exists b, bit_field_every x st en = Ok b /\ (b = true <-> forall i, s <= i < e -> Z.testbit n i = true)) /\
  bits_are (bit_field_reverse x st en) (fun i => if (s <=? i) && (i <? e) then Z.testbit n (s + e - 1 - i) else Z.testbit n i) /\
  (forall cnt c, is_int cnt c -> s < e ->
     bits_are (bit_field_rotate x cnt st en) (fun i => if (s <=? i) && (i <? e) then Z.testbit n (s + (i - s - c) mod (e - s)) else Z.testbit n i)).
Proof.
  exact (fun x st en n s e Hx Hs He F L => conj (bit_field_ok x st en n s e Hx Hs He F L) (conj (bit_field_any_ok x st en n s e Hx Hs He F L)
    (conj (bit_field_every_ok x st en n s e Hx Hs He F L) (conj (bit_field_reverse_ok x st en n s e Hx Hs He F L)
    (fun cnt c Hc Hlt => rotate_ok x st en n s e Hx Hs He F cnt c L Hc Hlt))))).
Qed.
Print Assumptions C12_srfi151_field_partial.
Theorem C12_srfi151_replace : forall x y st en n m s e, is_int x n -> is_int y m -> is_int st s -> is_int en e ->
  (0 <= s /\ s <= e /\ e < 2^31) ->
  bits_are (bit_field_replace x y st en) (fun i => if (s <=? i) && (i <? e) then Z.testbit m (i - s) else Z.testbit n i) /\
  bits_are (bit_field_replace_same x y st en) (fun i => if (s <=? i) && (i <? e) then Z.testbit m i else Z.testbit n i) /\
  bits_are (bit_field_clear x st en) (fun i => if (s <=? i) && (i <? e) then false else Z.testbit n i) /\
  bits_are (bit_field_set x st en) (fun i => if (s <=? i) && (i <? e) then true else Z.testbit n i).
Proof.
  exact (fun x y st en n m s e Hx Hy Hs He F => conj (bit_field_replace_ok x st en n s e Hx Hs He F y m Hy)
    (conj (bit_field_replace_same_ok x st en n s e Hx Hs He F y m Hy) (conj (bit_field_clear_ok x st en n s e Hx Hs He F) (bit_field_set_ok x st en n s e Hx Hs He F)))).
Qed.
Print Assumptions C12_srfi151_replace.
Theorem C12_srfi151_first_set_bit : forall x n, is_int x n ->
  (forall r, 0 <= r < 2^31 - 1 -> Z.testbit n r = true -> (forall j, 0 <= j < r -> Z.testbit n j = false) -> gives (first_set_bit x) r) /\
  (n = 0 -> gives (first_set_bit x) (-1)).
Proof.
  exact (fun x n Hx => conj (fun r => first_set_bit_ok x n r Hx)
    (fun E => first_set_bit_zero x (eq_ind n (is_int x) Hx 0 E))).
Qed.
Print Assumptions C12_srfi151_first_set_bit.
(** Lists of bits, lowest first; [of_bits] is the number they denote. *)
Theorem C12_srfi151_lists :
  (forall bs, is_int (list_to_bits bs) (of_bits bs)) /\
  (forall x n, is_int x n -> 0 <= n -> exists l, bits_to_list x = Ok l /\ of_bits l = n /\ (l = [] \/ last l false = true)) /\
  (forall len x n, is_int x n -> exists l, bits_to_list_len len x = Ok l /\ length l = len /\
     forall i, (i < len)%nat -> nth i l false = Z.testbit n (Z.of_nat i)).
Proof. exact (conj list_to_bits_ok (conj bits_to_list_ok bits_to_list_len_ok)). Qed.
Print Assumptions C12_srfi151_lists.
Theorem C12_srfi151_fold : forall (A : Type) (proc : bool -> A -> A) seed x n w, is_int x n -> gives (b_width x) w -> 0 <= w <= 2^31 ->
  bitwise_fold proc seed x = Ok (fold_left (fun r j => proc (Z.testbit n (Z.of_nat j)) r) (seq 0 (Z.to_nat w)) seed).
Proof. exact (fun A => @bitwise_fold_ok A). Qed.
Print Assumptions C12_srfi151_fold.

Example C12_ex : b_and (Small (-4)) (Large (2^40 + 7)) = Ok (Large (2^40 + 4)) /\ b_shift (Small (-5)) (Small (-1)) = Ok (Small (-3)) /\
  b_shift (Small 1) (Small 63) = Ok (Large (2^63)) /\ b_count (Small (-8)) = Ok (Small 3) /\ b_width (Small 255) = Ok (Small 8) /\
  bit_field_rotate (Small 22) (Small 1) (Small 1) (Small 5) = Ok (Small 14) /\
  bit_field_reverse (Small 11) (Small 0) (Small 4) = Ok (Small 13) /\
  bits_to_list (Small 6) = Ok [false; true; true] /\ bit_swap (Small 0) (Small 2) (Small 4) = Ok (Small 1) /\
  first_set_bit (Large (3 * 2^70)) = Ok (Small 70).
Proof. vm_compute. auto 12. Qed.

(** ** C14.  [divides_with o n d P]: o is a pair of exact integers q, r with
    n = d * q + r and P q r.  Full statements: without the bounds. *)
Theorem C14_truncate_partial : forall x y n d, is_int x n -> is_int y d -> d <> 0 -> valid x -> valid y ->
  Z.abs n < 2^53 * Z.abs d \/ (d | n) ->
  divides_with (truncate_div x y) n d (fun _ r => Z.abs r < Z.abs d /\ (r = 0 \/ Z.sgn r = Z.sgn n)).
Proof. exact truncate_div_ok. Qed.
Print Assumptions C14_truncate_partial.
Theorem C14_floor_partial : forall x y n d, is_int x n -> is_int y d -> d <> 0 -> Z.abs n <= 2^52 -> Z.abs d <= 2^52 ->
  divides_with (floor_div x y) n d (fun _ r => 0 <= r < d \/ d < r <= 0).
Proof. exact floor_div_ok. Qed.
Print Assumptions C14_floor_partial.
Theorem C14_ceiling_partial : forall x y n d, is_int x n -> is_int y d -> d <> 0 -> Z.abs n <= 2^52 -> Z.abs d <= 2^52 ->
  divides_with (ceiling_div x y) n d (fun _ r => - d < r <= 0 \/ 0 <= r < - d).
Proof. exact ceiling_div_ok. Qed.
Print Assumptions C14_ceiling_partial.
Theorem C14_euclidean_partial : forall x y n d, is_int x n -> is_int y d -> d <> 0 -> Z.abs n <= 2^52 -> Z.abs d <= 2^52 ->
  divides_with (euclidean_div x y) n d (fun _ r => 0 <= r < Z.abs d).
Proof. exact euclidean_div_ok. Qed.
Print Assumptions C14_euclidean_partial.
Theorem C14_round_partial : forall x y n d, is_int x n -> is_int y d -> d <> 0 -> Z.abs n <= 2^51 * Z.abs d ->
  (forall k, 2 * n <> (2 * k + 1) * d) ->
  divides_with (round_div x y) n d (fun _ r => 2 * Z.abs r < Z.abs d).
Proof. exact round_div_ok. Qed.
Print Assumptions C14_round_partial.
Theorem C14_balanced_partial : forall x y n d, is_int x n -> is_int y d -> d <> 0 -> valid y -> Z.abs n <= 2^52 -> Z.abs d <= 2^52 ->
  divides_with (balanced_div x y) n d (fun _ r => - Z.abs d <= 2 * r < Z.abs d).
Proof. exact balanced_div_ok. Qed.
Print Assumptions C14_balanced_partial.
Theorem C14_refuted :
  (* round/ 5 2: a tie must go to the even quotient *)
  round_div (Small 5) (Small 2) = Ok (Large 3, Large (-1)) /\
  (* floor/ of a negative number of 62 bits: n <> d * q + r *)
  (exists n q r, floor_div (Large n) (Small 3) = Ok (Large q, Large r) /\ n <> 3 * q + r) /\
  (* euclidean/: a negative remainder *)
  (exists n q r, euclidean_div (Large n) (Small 3) = Ok (Large q, Large r) /\ r < 0).
Proof.
  split; [vm_compute; reflexivity|]. split.
  - exists (- (3 * 2^60) - 1). do 2 eexists. split; [vm_compute; reflexivity|]. vm_compute. discriminate.
  - exists (- (3 * 2^60) - 1). do 2 eexists. split; [vm_compute; reflexivity|]. vm_compute. reflexivity.
Qed.
Print Assumptions C14_refuted.
Example C14_ex : floor_div (Small (-7)) (Small 2) = Ok (Large (-4), Small 1) /\ ceiling_div (Small (-7)) (Small 2) = Ok (Large (-3), Large (-1)) /\
  euclidean_div (Small (-7)) (Small (-2)) = Ok (Large 4, Large 1) /\ balanced_div (Small 7) (Small 4) = Ok (Large 2, Large (-1)).
Proof. vm_compute. auto. Qed.

(** ** C15 *)
Theorem C15_refuted : number_to_string (Small (-2^31)) 2 = Crash.
Proof. vm_compute. reflexivity. Qed.
Print Assumptions C15_refuted.
Theorem C15_roundtrip_partial : forall r, 2 <= r <= 36 -> forall x n, valid x -> is_int x n -> ~ (x = Small (-2^31) /\ r = 2) ->
  exists s y, number_to_string x r = Ok s /\ make_rational s r = Ok (Some y) /\ is_int y n.
Proof. exact text_roundtrip. Qed.
Print Assumptions C15_roundtrip_partial.
Example C15_ex : number_to_string (Small (-255)) 16 = Ok [45; 102; 102] /\ make_integer [45; 70; 102] 16 = Some (Small (-255)) /\
  make_integer [57;50;50;51;51;55;50;48;51;54;56;53;52;55;55;53;56;48;56] 10 = Some (Large (2^63)).
Proof. vm_compute. auto. Qed.

(** ** C47: exact rationals as text.  Full statement: number->string of a ratio
    reads back, ratio literals denote their quotient in canonical form, a
    leading plus sign is allowed, and malformed literals are rejected. *)
Theorem C47_refuted :
  (forall q r, number_to_string (Ratio q) r = Ok [84; 79; 68; 79]) /\               (* "TODO" *)
  make_rational [84; 79; 68; 79] 10 = Ok None /\
  make_rational [52; 47; 50] 10 = Ok (Some (Ratio (2 # 1))) /\                       (* 4/2 is no integer *)
  make_rational [49; 47; 48] 10 = Crash /\                                           (* 1/0 *)
  make_rational [43; 53] 10 = Ok None /\                                             (* +5 is no exact number *)
  make_rational [49; 32; 50] 10 = Ok (Some (Ratio (12 # 1))).                        (* "1 2" *)
Proof. split; [reflexivity|]. vm_compute. auto. Qed.
Print Assumptions C47_refuted.
Theorem C47_ratio_literal_partial : forall r, 2 <= r <= 36 -> forall n d, 0 < d -> exists q,
  make_rational (int_text r n ++ 47 :: int_text r d) r = Ok (Some (Ratio q)) /\ Qred q = q /\ q == inject_Z n / inject_Z d.
Proof. exact ratio_literal. Qed.
Print Assumptions C47_ratio_literal_partial.
Example C47_ex : make_rational [45; 54; 47; 56] 10 = Ok (Some (Ratio (-3 # 4))).
Proof. vm_compute. reflexivity. Qed.

(** ** C48: SRFI 143 shifts.  fxarithmetic-shift-right must divide by 2^k. *)
Theorem C48_refuted : fxarithmetic_shift_right (Small 8) (Small 1) = Ok (Small 16).
Proof. vm_compute. reflexivity. Qed.
Print Assumptions C48_refuted.
Theorem C48_shift_left_partial : forall x c n k, is_int x n -> is_int c k -> 0 <= k < 32 ->
  gives (fxarithmetic_shift_left x c) (n * 2^k).
Proof.
  intros x c n k Hx Hc Hk. rewrite <- Z.shiftl_mul_pow2 by lia. apply shift_int; try assumption. split; [lia|left; lia].
Qed.
Print Assumptions C48_shift_left_partial.
