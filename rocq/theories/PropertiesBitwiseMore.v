(** The rest of library/srfi-151.ss: bitwise-for-each, bitwise-unfold, make-bitwise-generator, bits,
    bits->vector and vector->bits (lines 211-212 and 226-267).  A procedure that the program passes
    is a function on a state s, which stands for everything it can see and alter. *)
From Coq Require Import ZArith List Bool Lia.
From Verif Require Import Number NumberProofs Bitwise BitwiseProofs Srfi151Proofs.
Import ListNotations.
Open Scope Z_scope.

Section State.
  Variable state : Type.
  (** library/srfi-151.ss:246-251 bitwise-for-each; [todo] is the number of turns for which n < len *)
  Fixpoint bitwise_for_each_loop (proc : bool -> state -> state) (i : num) (todo : nat) (n : num) (s : state) : outcome state :=
    match todo with
    | O => Ok s
    | S t => let! b := bit_set n i in bitwise_for_each_loop proc i t (n_add n (Small 1)) (proc b s)
    end.
  Definition bitwise_for_each (proc : bool -> state -> state) (i : num) (s : state) : outcome state :=
    let! len := b_width i in bitwise_for_each_loop proc i (Z.to_nat (mag len)) (Small 0) s.
  (** library/srfi-151.ss:253-259 bitwise-unfold.  The state of the program and the state of the
      loop are one; None when the fuel is used up. *)
  Fixpoint bitwise_unfold_loop (fuel : nat) (stop mapper : state -> bool) (successor : state -> state) (n result : num) (s : state) : option (outcome num) :=
    match fuel with
    | O => None
    | S f =>
      if stop s then Some (Ok result)
      else match copy_bit n result (mapper s) with
           | Ok r => bitwise_unfold_loop f stop mapper successor (n_add n (Small 1)) r (successor s)
           | Raise => Some Raise
           | Crash => Some Crash
           end
    end.
  Definition bitwise_unfold (fuel : nat) (stop mapper : state -> bool) (successor : state -> state) (seed : state) : option (outcome num) :=
    bitwise_unfold_loop fuel stop mapper successor (Small 0) (Small 0) seed.
End State.
Arguments bitwise_for_each {state}. Arguments bitwise_for_each_loop {state}. Arguments bitwise_unfold {state}. Arguments bitwise_unfold_loop {state}.
(** library/srfi-151.ss:261-265 make-bitwise-generator: the state of a generator is the variable i; one call *)
Definition generator_next (i : num) : outcome (bool * num) :=
  let! bit := bit_set (Small 0) i in let! i' := b_shift i (Small (-1)) in Ok (bit, i').
(** the bits that [k] calls return *)
Fixpoint generator_calls (k : nat) (i : num) : outcome (list bool) :=
  match k with
  | O => Ok []
  | S k => let! r := generator_next i in let! bs := generator_calls k (snd r) in Ok (fst r :: bs)
  end.
(** library/srfi-151.ss:211-212 bits, 226-229 bits->vector, 231-232 vector->bits; a vector is the list of its elements *)
Definition bits := list_to_bits.
Definition bits_to_vector := bits_to_list.
Definition bits_to_vector_len := bits_to_list_len.
Definition vector_to_bits := list_to_bits.

Lemma for_each_loop_ok {state} (proc : bool -> state -> state) x n : is_int x n -> forall todo i k s, is_int i (Z.of_nat k) -> Z.of_nat (k + todo) <= 2^31 ->
  bitwise_for_each_loop proc x todo i s = Ok (fold_left (fun r j => proc (Z.testbit n (Z.of_nat j)) r) (seq k todo) s).
Proof.
  intros Hx. induction todo as [|t IH]; intros i k r Hi Hb; cbn [bitwise_for_each_loop seq fold_left]; [reflexivity|].
  rewrite (bit_set_ok i x (Z.of_nat k) n Hi Hx) by lia. cbn [obind]. apply IH; [|lia].
  replace (Z.of_nat (S k)) with (Z.of_nat k + 1) by lia. apply add_int; [exact Hi|apply is_small].
Qed.
Lemma iter_succ_r {A} n (f : A -> A) x : Nat.iter (S n) f x = Nat.iter n f (f x).
Proof. induction n as [|n IH]; [reflexivity|]. change (f (Nat.iter (S n) f x) = f (Nat.iter n f (f x))). rewrite IH. reflexivity. Qed.
Lemma unfold_loop_ok {state} (stop mapper : state -> bool) (successor : state -> state) : forall k fuel i j result z s,
  (k < fuel)%nat -> is_int i (Z.of_nat j) -> is_int result z -> Z.of_nat (j + k) < 2 ^ 31 ->
  (forall m, (m < k)%nat -> stop (Nat.iter m successor s) = false) -> stop (Nat.iter k successor s) = true ->
  exists r z', bitwise_unfold_loop fuel stop mapper successor i result s = Some (Ok r) /\ is_int r z' /\
    forall b, 0 <= b -> Z.testbit z' b = if (Z.of_nat j <=? b) && (b <? Z.of_nat (j + k)) then mapper (Nat.iter (Z.to_nat b - j) successor s) else Z.testbit z b.
Proof.
  induction k as [|k IH]; intros fuel i j result z s F Hi Hr B N Y; destruct fuel as [|fuel]; try lia; cbn [bitwise_unfold_loop].
  - cbn [Nat.iter nat_rect] in Y. cbn in Y. rewrite Y. exists result, z. split; [reflexivity|]. split; [exact Hr|]. intros b Hb.
    replace ((Z.of_nat j <=? b) && (b <? Z.of_nat (j + 0))) with false; [reflexivity|]. symmetry. apply andb_false_iff. rewrite Z.leb_gt, Z.ltb_ge. lia.
  - pose proof (N 0%nat ltac:(lia)) as N0. cbn in N0. rewrite N0.
    destruct (copy_bit_ok i result (Z.of_nat j) z (mapper s) Hi Hr ltac:(lia)) as (zr & (r & E & Ir) & T). rewrite E.
    destruct (IH fuel (n_add i (Small 1)) (S j) r zr (successor s)) as (q & zq & Eq & Iq & Tq); try lia; try assumption.
    + replace (Z.of_nat (S j)) with (Z.of_nat j + 1) by lia. apply add_int; [exact Hi|apply is_small].
    + intros m Hm. specialize (N (S m) ltac:(lia)). rewrite iter_succ_r in N. exact N.
    + rewrite iter_succ_r in Y. exact Y.
    + exists q, zq. split; [exact Eq|]. split; [exact Iq|]. intros b Hb. rewrite (Tq b Hb). rewrite (T b Hb).
      replace (Z.of_nat (S j + k)) with (Z.of_nat (j + S k)) by lia.
      destruct (Z.eqb_spec b (Z.of_nat j)) as [->|D].
      * replace ((Z.of_nat (S j) <=? Z.of_nat j) && (Z.of_nat j <? Z.of_nat (j + S k))) with false by (symmetry; apply andb_false_iff; rewrite Z.leb_gt; lia).
        replace ((Z.of_nat j <=? Z.of_nat j) && (Z.of_nat j <? Z.of_nat (j + S k))) with true by (symmetry; apply andb_true_iff; rewrite Z.leb_le, Z.ltb_lt; lia).
        rewrite Nat2Z.id, Nat.sub_diag. reflexivity.
      * destruct (Z.leb_spec (Z.of_nat j) b) as [L|L].
        -- replace (Z.of_nat (S j) <=? b) with true by (symmetry; apply Z.leb_le; lia). destruct (b <? Z.of_nat (j + S k)); [|reflexivity]. cbn [andb].
           replace (Z.to_nat b - j)%nat with (S (Z.to_nat b - S j)) by lia. rewrite iter_succ_r. reflexivity.
        -- replace (Z.of_nat (S j) <=? b) with false by (symmetry; apply Z.leb_gt; lia). reflexivity.
Qed.
Lemma generator_ok k : forall x n, is_int x n ->
  exists l, generator_calls k x = Ok l /\ length l = k /\ forall i, (i < k)%nat -> nth i l false = Z.testbit n (Z.of_nat i).
Proof.
  induction k as [|k IH]; intros x n Hx; cbn [generator_calls].
  - exists []. split; [reflexivity|]. split; [reflexivity|]. intros; lia.
  - unfold generator_next. rewrite (bit_set_ok (Small 0) x 0 n (is_small _) Hx ltac:(lia)). cbn [obind].
    destruct (shift_int x (Small (-1)) n (-1) Hx (is_small _) ltac:(split; [lia|left; lia])) as [x' [-> Hx']]. cbn [obind fst snd].
    destruct (IH x' _ Hx') as [l [-> [Hl B]]]. cbn [obind]. eexists. split; [reflexivity|]. split; [cbn [length]; lia|].
    intros [|i] Hi; cbn [nth]; [reflexivity|]. rewrite B by lia. rewrite Z.shiftl_spec by lia. f_equal. lia.
Qed.

Theorem C12_srfi151_for_each : forall state (proc : bool -> state -> state) x n w s, is_int x n -> gives (b_width x) w -> 0 <= w <= 2^31 ->
  bitwise_for_each proc x s = Ok (fold_left (fun r j => proc (Z.testbit n (Z.of_nat j)) r) (seq 0 (Z.to_nat w)) s).
Proof.
  intros state proc x n w s Hx [r [E Hr]] Hw. unfold bitwise_for_each. rewrite E. cbn [obind].
  replace (mag r) with w by (destruct Hr as [-> | ->]; cbn [mag]; lia).
  apply for_each_loop_ok; [exact Hx|apply is_small|lia].
Qed.
Print Assumptions C12_srfi151_for_each.
(** Bit j of the result is what mapper gives for the j-th state, for the states before the first at which stop? holds *)
Theorem C12_srfi151_unfold : forall state (stop mapper : state -> bool) (successor : state -> state) seed k fuel, (k < fuel)%nat -> Z.of_nat k < 2 ^ 31 ->
  (forall m, (m < k)%nat -> stop (Nat.iter m successor seed) = false) -> stop (Nat.iter k successor seed) = true ->
  exists r z, bitwise_unfold fuel stop mapper successor seed = Some (Ok r) /\ is_int r z /\
    forall b, 0 <= b -> Z.testbit z b = if b <? Z.of_nat k then mapper (Nat.iter (Z.to_nat b) successor seed) else false.
Proof.
  intros state stop mapper successor seed k fuel F B N Y.
  destruct (unfold_loop_ok stop mapper successor k fuel (Small 0) 0%nat (Small 0) 0 seed F (is_small _) (is_small _) ltac:(lia) N Y) as (r & z & E & I & T).
  exists r, z. split; [exact E|]. split; [exact I|]. intros b Hb. rewrite (T b Hb). replace (Z.of_nat 0 <=? b) with true by (symmetry; apply Z.leb_le; lia).
  cbn [andb]. rewrite Nat.sub_0_r, Z.testbit_0_l. reflexivity.
Qed.
Print Assumptions C12_srfi151_unfold.
Theorem C12_srfi151_generator : forall k x n, is_int x n ->
  exists l, generator_calls k x = Ok l /\ length l = k /\ forall i, (i < k)%nat -> nth i l false = Z.testbit n (Z.of_nat i).
Proof. exact generator_ok. Qed.
Print Assumptions C12_srfi151_generator.
Theorem C12_srfi151_vectors : (forall bs, is_int (vector_to_bits bs) (of_bits bs) /\ is_int (bits bs) (of_bits bs)) /\
  (forall x n, is_int x n -> 0 <= n -> exists l, bits_to_vector x = Ok l /\ of_bits l = n /\ (l = [] \/ last l false = true)) /\
  (forall len x n, is_int x n -> exists l, bits_to_vector_len len x = Ok l /\ length l = len /\ forall i, (i < len)%nat -> nth i l false = Z.testbit n (Z.of_nat i)).
Proof. exact (conj (fun bs => conj (list_to_bits_ok bs) (list_to_bits_ok bs)) (conj bits_to_list_ok bits_to_list_len_ok)). Qed.
Print Assumptions C12_srfi151_vectors.
Example C12_ex_unfold : bitwise_unfold 20 (Nat.eqb 10) Nat.even S 0%nat = Some (Ok (Small 341)) /\ generator_calls 4 (Small 22) = Ok [false; true; true; false] /\
  bitwise_for_each (fun b s => s ++ [b])%list (Small 6) [] = Ok [false; true; true] /\ bits [false; true; true] = Small 6.
Proof. vm_compute. repeat split. Qed.
