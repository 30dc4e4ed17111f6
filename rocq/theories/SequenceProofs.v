(** Proofs about strings and vectors. *)
From Coq Require Import ZArith QArith List Bool Lia ZifyBool.
From Verif Require Import Number NumberProofs TextPort TextPortProofs Sequence.
Import ListNotations.
Open Scope Z_scope.

(** ** Specification *)
(** An argument that is an exact integer with value [z], and is small enough to be an
    index at all *)
Definition index_arg (k : num) (z : Z) : Prop := is_int k z /\ 0 <= z < 2^64.
Definition opt_index (k : option num) (default z : Z) : Prop :=
  match k with Some k => index_arg k z | None => z = default end.
(** The elements from position [s] up to and not including position [e] *)
Definition between {A} (xs : list A) (s e : Z) (ys : list A) : Prop :=
  exists pre post, xs = pre ++ ys ++ post /\ Z.of_nat (length pre) = s /\ Z.of_nat (length ys) = e - s.

Lemma cast_index : forall k z, index_arg k z -> cast_size k = Ok z.
Proof.
  intros k z [H R]. destruct H; subst; cbn.
  - rewrite Z.mod_small by lia. reflexivity.
  - rewrite Z.abs_eq, Z.mod_small by lia. reflexivity.
Qed.

Section Proofs.
Context {A : Type}.
Implicit Types (xs ys : list A).

Lemma span_ok : forall xs start stop s e,
  opt_index start 0 s -> opt_index stop (len xs) e -> 0 <= s <= e -> e <= len xs ->
  span xs start stop = Ok (Z.to_nat s, Z.to_nat e).
Proof.
  intros xs start stop s e Hs He H1 H2. unfold span.
  assert (E1 : match start with Some k => cast_size k | None => Ok 0 end = Ok s).
  { destruct start; cbn in Hs; [apply cast_index; assumption|congruence]. }
  assert (E2 : match stop with Some k => cast_size k | None => Ok (len xs) end = Ok e).
  { destruct stop; cbn in He; [apply cast_index; assumption|congruence]. }
  rewrite E1, E2. cbn [obind].
  replace ((s <=? e) && (e <=? len xs)) with true by lia. reflexivity.
Qed.

Lemma skipn_add : forall a b xs, skipn a (skipn b xs) = skipn (b + a) xs.
Proof. induction b; intros [|x xs]; cbn; auto using skipn_nil. Qed.
Lemma slice_between : forall xs s e, 0 <= s <= e -> e <= len xs ->
  between xs s e (slice xs (Z.to_nat s) (Z.to_nat e)).
Proof.
  intros xs s e H1 H2. unfold slice, len in *.
  exists (firstn (Z.to_nat s) xs), (skipn (Z.to_nat e) xs). split; [|split].
  - replace (skipn (Z.to_nat e) xs) with (skipn (Z.to_nat e - Z.to_nat s) (skipn (Z.to_nat s) xs)).
    + rewrite !firstn_skipn. reflexivity.
    + rewrite skipn_add. f_equal. lia.
  - rewrite firstn_length. lia.
  - rewrite firstn_length, skipn_length. lia.
Qed.
Lemma between_unique : forall xs s e ys zs, between xs s e ys -> between xs s e zs -> ys = zs.
Proof.
  intros xs s e ys zs (p1 & q1 & E1 & L1 & M1) (p2 & q2 & E2 & L2 & M2).
  rewrite E1 in E2.
  assert (Hp : p1 = p2).
  { apply (f_equal (firstn (length p1))) in E2.
    rewrite firstn_app, firstn_all, Nat.sub_diag, app_nil_r in E2.
    replace (length p1) with (length p2) in E2 at 1 by lia.
    rewrite firstn_app, firstn_all, Nat.sub_diag in E2. cbn in E2. rewrite app_nil_r in E2. exact E2. }
  subst p2. apply app_inv_head in E2.
  apply (f_equal (firstn (length ys))) in E2.
  rewrite firstn_app, firstn_all, Nat.sub_diag, app_nil_r in E2.
  replace (length ys) with (length zs) in E2 at 1 by lia.
  rewrite firstn_app, firstn_all, Nat.sub_diag in E2. cbn in E2. rewrite app_nil_r in E2. exact E2.
Qed.

Lemma fold_cons_rev : forall xs acc, fold_left (fun acc (x : A) => x :: acc) xs acc = rev xs ++ acc.
Proof. induction xs; intros; cbn; [reflexivity|]. rewrite IHxs, <- app_assoc. reflexivity. Qed.

Lemma copy_ok : forall xs start stop s e,
  opt_index start 0 s -> opt_index stop (len xs) e -> 0 <= s <= e -> e <= len xs ->
  exists ys, between xs s e ys /\
    seq_copy xs start stop = Ok ys /\ seq_to_list xs start stop = Ok ys /\ hseq_to_list xs start stop = Ok ys.
Proof.
  intros xs start stop s e Hs He H1 H2.
  exists (slice xs (Z.to_nat s) (Z.to_nat e)). split; [apply slice_between; assumption|].
  unfold seq_copy, seq_to_list, hseq_to_list. rewrite (span_ok xs start stop s e) by assumption.
  cbn [obind fst snd]. rewrite !fold_cons_rev, !app_nil_r, rev_involutive. auto.
Qed.
Lemma span_bad : forall xs start stop s e,
  opt_index start 0 s -> opt_index stop (len xs) e -> ~ (0 <= s <= e /\ e <= len xs) ->
  seq_copy xs start stop = Crash.
Proof.
  intros xs start stop s e Hs He H.
  assert (0 <= s) by (destruct start; cbn in Hs; [unfold index_arg in Hs; lia|lia]).
  unfold seq_copy, span.
  assert (E1 : match start with Some k => cast_size k | None => Ok 0 end = Ok s).
  { destruct start; cbn in Hs; [apply cast_index; assumption|congruence]. }
  assert (E2 : match stop with Some k => cast_size k | None => Ok (len xs) end = Ok e).
  { destruct stop; cbn in He; [apply cast_index; assumption|congruence]. }
  rewrite E1, E2. cbn [obind]. replace ((s <=? e) && (e <=? len xs)) with false by lia. reflexivity.
Qed.

Lemma append_ok : forall (xss : list (list A)), seq_append xss = concat xss.
Proof.
  intros. unfold seq_append.
  assert (H : forall xss acc, fold_left (fun s (x : list A) => s ++ x) xss acc = acc ++ concat xss).
  { clear. induction xss; intros; cbn; [symmetry; apply app_nil_r|]. rewrite IHxss, app_assoc. reflexivity. }
  apply H.
Qed.

Lemma fill_ok : forall xs (x : A) start stop s e,
  opt_index start 0 s -> opt_index stop (len xs) e -> 0 <= s <= e -> e <= len xs ->
  exists ys, seq_fill xs x start stop = Ok ys /\ length ys = length xs /\
    forall i, (i < length xs)%nat ->
      nth_error ys i = if (s <=? Z.of_nat i) && (Z.of_nat i <? e) then Some x else nth_error xs i.
Proof.
  intros xs x start stop s e Hs He H1 H2. unfold seq_fill.
  rewrite (span_ok xs start stop s e) by assumption. cbn [obind fst snd].
  eexists. split; [reflexivity|]. unfold len in *. split.
  - rewrite !app_length, repeat_length, firstn_length, skipn_length. lia.
  - intros i Hi. destruct (Z.ltb_spec (Z.of_nat i) s).
    + replace (s <=? Z.of_nat i) with false by lia. cbn [andb].
      rewrite nth_error_app1 by (rewrite firstn_length; lia).
      rewrite <- (firstn_skipn (Z.to_nat s) xs) at 2. rewrite nth_error_app1; [reflexivity|].
      rewrite firstn_length. lia.
    + replace (s <=? Z.of_nat i) with true by lia. cbn [andb].
      rewrite nth_error_app2 by (rewrite firstn_length; lia). rewrite firstn_length.
      replace (Nat.min (Z.to_nat s) (length xs)) with (Z.to_nat s) by lia.
      destruct (Z.ltb_spec (Z.of_nat i) e).
      * rewrite nth_error_app1 by (rewrite repeat_length; lia).
        rewrite (nth_error_nth' _ x) by (rewrite repeat_length; lia). rewrite nth_repeat. reflexivity.
      * rewrite nth_error_app2 by (rewrite repeat_length; lia). rewrite repeat_length.
        rewrite <- (firstn_skipn (Z.to_nat e) xs) at 2. rewrite nth_error_app2 by (rewrite firstn_length; lia).
        rewrite firstn_length. f_equal. lia.
Qed.

(** ** Element access *)
Lemma nth_error_len : forall xs z, 0 <= z < len xs -> exists x, nth_error xs (Z.to_nat z) = Some x.
Proof.
  intros xs z H. unfold len in H. destruct (nth_error xs (Z.to_nat z)) eqn:E; [eauto|].
  apply nth_error_None in E. lia.
Qed.
Lemma set_nth_length : forall n (x : A) xs, length (set_nth n x xs) = length xs.
Proof. induction n; intros x [|y xs]; cbn; auto. Qed.
Lemma set_nth_nth : forall n (x : A) xs i,
  nth_error (set_nth n x xs) i = if Nat.eqb i n then (if Nat.ltb n (length xs) then Some x else None) else nth_error xs i.
Proof.
  induction n; intros x [|y xs] [|i]; cbn; try reflexivity.
  - destruct (Nat.eqb i n); reflexivity.
  - rewrite IHn. destruct (Nat.eqb i n); [|reflexivity].
    change (S n <? S (length xs))%nat with (n <? length xs)%nat. reflexivity.
Qed.

Lemma ref_ok : forall xs k z, is_int k z -> 0 <= z < len xs -> len xs < 2^64 ->
  exists x, nth_error xs (Z.to_nat z) = Some x /\ seq_ref xs k = Ok x /\ seq_at xs k = Ok x.
Proof.
  intros xs k z Hk Hz Hl. destruct (nth_error_len xs z Hz) as [x E]. exists x.
  unfold seq_ref, seq_at. rewrite (cast_index k z) by (split; [assumption|lia]). cbn [obind].
  replace (z <? len xs) with true by lia. rewrite E. auto.
Qed.
Lemma set_ok : forall xs k z (x : A), is_int k z -> 0 <= z < len xs -> len xs < 2^64 ->
  exists ys, seq_set xs k x = Ok ys /\ seq_set_at xs k x = Ok ys /\ length ys = length xs /\
    nth_error ys (Z.to_nat z) = Some x /\
    forall i, i <> Z.to_nat z -> nth_error ys i = nth_error xs i.
Proof.
  intros xs k z x Hk Hz Hl. exists (set_nth (Z.to_nat z) x xs).
  unfold seq_set, seq_set_at. rewrite (cast_index k z) by (split; [assumption|lia]). cbn [obind].
  replace (z <? len xs) with true by lia.
  repeat split; [apply set_nth_length| |].
  - rewrite set_nth_nth, Nat.eqb_refl. unfold len in *. destruct (Nat.ltb_spec (Z.to_nat z) (length xs)); [reflexivity|lia].
  - intros i Hi. rewrite set_nth_nth. destruct (Nat.eqb_spec i (Z.to_nat z)); [lia|reflexivity].
Qed.
(** The checked accessor rejects every int out of range *)
Lemma at_rejects : forall xs z, is_int32 z = true -> len xs < 2^63 -> ~ (0 <= z < len xs) -> seq_at xs (Small z) = Raise.
Proof.
  intros xs z Hz Hl H. unfold seq_at. cbn [cast_size obind]. unfold is_int32, int32_min, int32_max in Hz.
  assert (0 <= len xs) by (unfold len; lia).
  assert (len xs <= z mod 2^64).
  { destruct (Z_lt_dec z 0).
    - rewrite <- (Z.mod_unique z (2^64) (-1) (z + 2^64)); lia.
    - rewrite Z.mod_small by lia. lia. }
  replace (z mod 2^64 <? len xs) with false by lia. reflexivity.
Qed.
(** ... and the unchecked one touches memory it does not own *)
Lemma ref_out_of_range : forall xs z, is_int32 z = true -> len xs < 2^63 -> ~ (0 <= z < len xs) -> seq_ref xs (Small z) = Crash.
Proof.
  intros xs z Hz Hl H. unfold seq_ref. cbn [cast_size obind]. unfold is_int32, int32_min, int32_max in Hz.
  assert (0 <= len xs) by (unfold len; lia).
  assert (len xs <= z mod 2^64).
  { destruct (Z_lt_dec z 0).
    - rewrite <- (Z.mod_unique z (2^64) (-1) (z + 2^64)); lia.
    - rewrite Z.mod_small by lia. lia. }
  replace (z mod 2^64 <? len xs) with false by lia. reflexivity.
Qed.

(** ** Copying *)
(** [to] after the range of [from] has been copied to position [j], as if through a
    temporary *)
Definition copied (dst src : list A) (j i n : nat) (res : list A) : Prop :=
  length res = length dst /\
  forall p, nth_error res p =
    if (j <=? p)%nat && (p <? j + n)%nat then nth_error src (i + (p - j)) else nth_error dst p.

Lemma copy_forward_ok : forall n (h : store) from i to j,
  (i + n <= length (h from))%nat -> (j + n <= length (h to))%nat ->
  (to <> from \/ (j <= i)%nat \/ (i + n <= j)%nat) ->
  exists h', copy_forward n h from i to j = Ok h' /\
    copied (h to) (h from) j i n (h' to) /\ forall o, o <> to -> h' o = h o.
Proof.
  induction n as [|n IH]; intros h from i to j Hi Hj Hd.
  { exists h. split; [reflexivity|]. split; [|auto]. split; [reflexivity|].
    intros p. replace ((j <=? p)%nat && (p <? j + 0)%nat) with false by lia. reflexivity. }
  cbn [copy_forward].
  destruct (nth_error (h from) i) as [x|] eqn:Ex.
  2:{ apply nth_error_None in Ex. lia. }
  unfold len. replace (Z.of_nat j <? Z.of_nat (length (h to))) with true by lia.
  set (h1 := update h to (set_nth j x (h to))).
  assert (Et : h1 to = set_nth j x (h to)) by (unfold h1, update; rewrite Nat.eqb_refl; reflexivity).
  assert (Lf : length (h1 from) = length (h from)).
  { unfold h1, update. destruct (Nat.eqb_spec from to); [|reflexivity]. subst. apply set_nth_length. }
  destruct (IH h1 from (S i) to (S j)) as (h' & E & [L C] & Ho).
  - rewrite Lf. lia.
  - rewrite Et, set_nth_length. lia.
  - lia.
  - exists h'. split; [exact E|]. split.
    + split; [rewrite L, Et; apply set_nth_length|]. intros p. rewrite C, Et, set_nth_nth.
      replace (Nat.ltb j (length (h to))) with true by lia.
      destruct (Nat.eqb_spec p j).
      * subst p. replace ((S j <=? j)%nat && (j <? S j + n)%nat) with false by lia.
        replace ((j <=? j)%nat && (j <? j + S n)%nat) with true by lia.
        rewrite Nat.sub_diag, Nat.add_0_r. congruence.
      * replace ((S j <=? p)%nat && (p <? S j + n)%nat) with ((j <=? p)%nat && (p <? j + S n)%nat) by lia.
        destruct ((j <=? p)%nat && (p <? j + S n)%nat) eqn:B; [|reflexivity].
        assert (En : nth_error (h1 from) (S i + (p - S j)) = nth_error (h from) (S i + (p - S j))).
        { unfold h1, update. destruct (Nat.eqb_spec from to); [|reflexivity]. subst to.
          rewrite set_nth_nth. destruct (Nat.eqb_spec (S i + (p - S j)) j); [|reflexivity]. lia. }
        rewrite En. f_equal. lia.
    + intros o Hn. rewrite Ho by assumption. unfold h1, update. destruct (Nat.eqb_spec o to); [tauto|reflexivity].
Qed.

Lemma write_all_ok : forall ys xs j, (j + length ys <= length xs)%nat ->
  exists zs, write_all xs j ys = Ok zs /\ length zs = length xs /\
   forall p, nth_error zs p = if (j <=? p)%nat && (p <? j + length ys)%nat then nth_error ys (p - j) else nth_error xs p.
Proof.
  induction ys as [|y ys IH]; intros xs j H.
  { exists xs. cbn [write_all length]. repeat split. intros p.
    replace ((j <=? p)%nat && (p <? j + 0)%nat) with false by lia. reflexivity. }
  cbn [write_all length] in *. unfold len. replace (Z.of_nat j <? Z.of_nat (length xs)) with true by lia.
  destruct (IH (set_nth j y xs) (S j)) as (zs & E & L & C); [rewrite set_nth_length; lia|].
  exists zs. split; [exact E|]. split; [rewrite L; apply set_nth_length|].
  intros p. rewrite C, set_nth_nth. replace (Nat.ltb j (length xs)) with true by lia.
  destruct (Nat.eqb_spec p j).
  - subst. replace ((S j <=? j)%nat && (j <? S j + length ys)%nat) with false by lia.
    replace ((j <=? j)%nat && (j <? j + S (length ys))%nat) with true by lia. rewrite Nat.sub_diag. reflexivity.
  - replace ((S j <=? p)%nat && (p <? S j + length ys)%nat) with ((j <=? p)%nat && (p <? j + S (length ys))%nat) by lia.
    destruct ((j <=? p)%nat && (p <? j + S (length ys))%nat) eqn:B; [|reflexivity].
    replace (p - j)%nat with (S (p - S j)) by lia. reflexivity.
Qed.
Lemma nth_error_firstn_skipn : forall n i xs q, (q < n)%nat -> nth_error (firstn n (skipn i xs)) q = nth_error xs (i + q).
Proof.
  intros n i xs q H.
  assert (F : forall n (l : list A) q, (q < n)%nat -> nth_error (firstn n l) q = nth_error l q).
  { clear. induction n; intros [|x l] [|q] H; cbn; try lia; try reflexivity. apply IHn. lia. }
  rewrite F by assumption. revert i xs. clear. induction i; intros [|x xs]; cbn; try reflexivity.
  - destruct q; reflexivity.
  - apply IHi.
Qed.
Lemma copy_memmove_ok : forall n (h : store) from i to j,
  (i + n <= length (h from))%nat -> (j + n <= length (h to))%nat ->
  exists h', copy_memmove n h from i to j = Ok h' /\
    copied (h to) (h from) j i n (h' to) /\ forall o, o <> to -> h' o = h o.
Proof.
  intros n h from i to j Hi Hj. unfold copy_memmove.
  assert (L : length (firstn n (skipn i (h from))) = n) by (rewrite firstn_length, skipn_length; lia).
  destruct (write_all_ok (firstn n (skipn i (h from))) (h to) j) as (zs & E & Lz & C); [lia|].
  rewrite E. cbn [obind]. eexists. split; [reflexivity|].
  unfold update. rewrite Nat.eqb_refl. split.
  - split; [exact Lz|]. intros p. rewrite C, L.
    destruct ((j <=? p)%nat && (p <? j + n)%nat) eqn:B; [|reflexivity].
    apply nth_error_firstn_skipn. lia.
  - intros o Ho. destruct (Nat.eqb_spec o to); [tauto|reflexivity].
Qed.

Lemma vector_copy_ok : forall (h : store) to k from start stop j s e,
  index_arg k j -> opt_index start 0 s -> opt_index stop (len (h from)) e ->
  0 <= s <= e -> e <= len (h from) -> j + (e - s) <= len (h to) ->
  (to <> from \/ j <= s \/ e <= j) ->
  exists h', vector_copy_into h to k from start stop = Ok h' /\
    copied (h to) (h from) (Z.to_nat j) (Z.to_nat s) (Z.to_nat (e - s)) (h' to) /\
    forall o, o <> to -> h' o = h o.
Proof.
  intros h to k from start stop j s e Hk Hs He H1 H2 H3 Hd.
  unfold vector_copy_into. rewrite (span_ok (h from) start stop s e) by assumption.
  rewrite (cast_index k j Hk). cbn [obind fst snd]. destruct Hk as [_ Hj]. unfold len in *.
  replace (Z.to_nat e - Z.to_nat s)%nat with (Z.to_nat (e - s)) by lia.
  apply copy_forward_ok; lia.
Qed.
Lemma string_copy_ok : forall (h : store) to k from start stop j s e,
  index_arg k j -> opt_index start 0 s -> opt_index stop (len (h from)) e ->
  0 <= s <= e -> e <= len (h from) -> j + (e - s) <= len (h to) ->
  exists h', string_copy_into h to k from start stop = Ok h' /\
    copied (h to) (h from) (Z.to_nat j) (Z.to_nat s) (Z.to_nat (e - s)) (h' to) /\
    forall o, o <> to -> h' o = h o.
Proof.
  intros h to k from start stop j s e Hk Hs He H1 H2 H3.
  unfold string_copy_into. rewrite (span_ok (h from) start stop s e) by assumption.
  rewrite (cast_index k j Hk). cbn [obind fst snd]. destruct Hk as [_ Hj]. unfold len in *.
  replace (Z.to_nat e - Z.to_nat s)%nat with (Z.to_nat (e - s)) by lia.
  apply copy_memmove_ok; lia.
Qed.
End Proofs.

(** ** Comparison *)
(** The lexicographic order on code points *)
Definition lex_less (a b : list Z) : Prop :=
  exists p, (exists y r, a = p /\ b = p ++ y :: r) \/
            (exists x y a' b', a = p ++ x :: a' /\ b = p ++ y :: b' /\ x < y).
(** Every two neighbours are related *)
Definition chain {A} (R : A -> A -> Prop) (xs : list A) : Prop :=
  forall i x y, nth_error xs i = Some x -> nth_error xs (S i) = Some y -> R x y.

Lemma lex_lt_iff : forall a b, lex Z.ltb a b = true <-> lex_less a b.
Proof.
  induction a as [|x a IH]; intros [|y b]; cbn [lex].
  - split; [discriminate|]. intros (p & [(y & r & <- & E)|(x & y & a' & b' & E & _)]); [discriminate E|].
    destruct p; discriminate.
  - split; [intros _|reflexivity]. exists []. left. exists y, b. auto.
  - split; [discriminate|]. intros (p & [(z & r & <- & E)|(u & z & a' & b' & _ & E & _)]); [discriminate E|].
    destruct p; discriminate.
  - destruct (Z.ltb_spec x y).
    { split; [intros _|reflexivity]. exists []. right. exists x, y, a, b. auto. }
    destruct (Z.ltb_spec y x).
    { split; [discriminate|].
      intros (p & [(z & r & <- & E)|(u & z & a' & b' & E1 & E2 & L)]).
      - injection E as E _. lia.
      - destruct p as [|q p].
        + injection E1 as -> _. injection E2 as -> _. lia.
        + injection E1 as <- _. injection E2 as -> _. lia. }
    assert (x = y) by lia. subst y. rewrite IH. split.
    + intros (p & [(z & r & <- & E)|(u & z & a' & b' & -> & -> & L)]).
      * exists (x :: a). left. exists z, r. subst. auto.
      * exists (x :: p). right. exists u, z, a', b'. auto.
    + intros (p & [(z & r & <- & E)|(u & z & a' & b' & E1 & E2 & L)]).
      * exists a. left. exists z, r. injection E as ->. auto.
      * destruct p as [|q p].
        -- injection E1 as -> _. injection E2 as -> _. lia.
        -- injection E1 as -> ->. injection E2 as ->. exists p. right. exists u, z, a', b'. auto.
Qed.
Lemma chars_eq_iff : forall a b, chars_eq a b = true <-> a = b.
Proof.
  induction a as [|x a IH]; intros [|y b]; cbn; split; try discriminate; try reflexivity.
  - rewrite andb_true_iff, IH, Z.eqb_eq. intros [-> ->]. reflexivity.
  - intros [= -> ->]. rewrite Z.eqb_refl. apply IH. reflexivity.
Qed.
Lemma lex_total : forall a b, lex Z.ltb a b = false -> lex Z.ltb b a = false -> a = b.
Proof.
  induction a as [|x a IH]; intros [|y b]; cbn; try discriminate; try reflexivity.
  destruct (Z.ltb_spec x y); [discriminate|]. destruct (Z.ltb_spec y x); [discriminate|].
  intros. f_equal; [lia|]. apply IH; assumption.
Qed.
Lemma lex_asym : forall a b, lex Z.ltb a b = true -> lex Z.ltb b a = false.
Proof.
  induction a as [|x a IH]; intros [|y b]; cbn; try discriminate; try reflexivity.
  destruct (Z.ltb_spec x y).
  - destruct (Z.ltb_spec y x); [lia|reflexivity].
  - destruct (Z.ltb_spec y x); [discriminate|]. apply IH.
Qed.
Lemma lex_trans : forall a b c, lex Z.ltb a b = true -> lex Z.ltb b c = true -> lex Z.ltb a c = true.
Proof.
  induction a as [|x a IH]; intros [|y b] [|z c]; cbn; try discriminate; try reflexivity.
  destruct (Z.ltb_spec x y), (Z.ltb_spec y z), (Z.ltb_spec x z), (Z.ltb_spec y x), (Z.ltb_spec z y),
    (Z.ltb_spec z x); try lia; try discriminate; try reflexivity. apply IH.
Qed.
Lemma lex_map : forall f a b, lex (fun x y => f x <? f y) a b = lex Z.ltb (map f a) (map f b).
Proof. induction a as [|x a IH]; intros [|y b]; cbn; try reflexivity. rewrite IH. reflexivity. Qed.

Lemma adjacent_chain : forall {A} (f : A -> A -> bool) (R : A -> A -> Prop),
  (forall x y, f x y = true <-> R x y) -> forall xs, adjacent f xs = true <-> chain R xs.
Proof.
  intros A f R H xs. induction xs as [|x xs IH].
  { split; [|reflexivity]. intros _ [|i] a b E; discriminate E. }
  destruct xs as [|y xs].
  { split; [|reflexivity]. intros _ [|i] a b E1 E2; [discriminate E2|destruct i; discriminate E2]. }
  cbn [adjacent] in *. rewrite andb_true_iff, IH, H. split.
  - intros [Hxy Hc] [|i] a b E1 E2.
    + cbn in E1, E2. injection E1 as <-. injection E2 as <-. exact Hxy.
    + exact (Hc i a b E1 E2).
  - intros Hc. split; [exact (Hc O x y eq_refl eq_refl)|].
    intros i a b E1 E2. exact (Hc (S i) a b E1 E2).
Qed.

Lemma string_compare_ok : forall xs,
  (string_eq xs = true <-> chain eq xs) /\
  (string_lt xs = true <-> chain lex_less xs) /\
  (string_gt xs = true <-> chain (fun a b => lex_less b a) xs) /\
  (string_le xs = true <-> chain (fun a b => lex_less a b \/ a = b) xs) /\
  (string_ge xs = true <-> chain (fun a b => lex_less b a \/ a = b) xs).
Proof.
  assert (Hle : forall a b, negb (lex Z.ltb b a) = true <-> lex_less a b \/ a = b).
  { intros a b. rewrite <- lex_lt_iff. destruct (lex Z.ltb b a) eqn:E; cbn.
    - split; [discriminate|]. intros [H| ->].
      + apply lex_asym in H. congruence.
      + pose proof (lex_asym _ _ E). congruence.
    - split; [intros _|reflexivity]. destruct (lex Z.ltb a b) eqn:F; [auto|]. right. apply lex_total; assumption. }
  intros xs. repeat match goal with |- _ /\ _ => split end; apply adjacent_chain; intros a b.
  - apply chars_eq_iff.
  - apply lex_lt_iff.
  - apply lex_lt_iff.
  - apply Hle.
  - unfold chars_ge, chars_lt. rewrite Hle. intuition.
Qed.
Lemma lex_less_trichotomy : forall a b,
  (lex_less a b /\ a <> b /\ ~ lex_less b a) \/ (~ lex_less a b /\ a = b /\ ~ lex_less b a) \/
  (~ lex_less a b /\ a <> b /\ lex_less b a).
Proof.
  intros a b. rewrite <- !lex_lt_iff.
  assert (I : lex Z.ltb a a = false).
  { destruct (lex Z.ltb a a) eqn:E; [|reflexivity]. pose proof (lex_asym _ _ E). congruence. }
  destruct (lex Z.ltb a b) eqn:E.
  - left. pose proof (lex_asym _ _ E) as F. rewrite F. repeat split; try congruence.
  - destruct (lex Z.ltb b a) eqn:F.
    + right; right. repeat split; congruence.
    + right; left. repeat split; try congruence. apply lex_total; assumption.
Qed.
Lemma lex_less_trans : forall a b c, lex_less a b -> lex_less b c -> lex_less a c.
Proof. intros a b c. rewrite <- !lex_lt_iff. apply lex_trans. Qed.
Lemma string_ci_lt_ok : forall down xs,
  string_ci_lt down xs = true <-> chain (fun a b => lex_less (map down a) (map down b)) xs.
Proof. intros down xs. apply adjacent_chain. intros a b. rewrite lex_map. apply lex_lt_iff. Qed.
Lemma char_compare_ok : forall down xs,
  (char_cmp Z.eqb xs = true <-> chain eq xs) /\ (char_cmp Z.ltb xs = true <-> chain Z.lt xs) /\
  (char_cmp Z.gtb xs = true <-> chain Z.gt xs) /\ (char_cmp Z.leb xs = true <-> chain Z.le xs) /\
  (char_cmp Z.geb xs = true <-> chain Z.ge xs) /\
  (char_ci_cmp Z.eqb down xs = true <-> chain (fun x y => down x = down y) xs) /\
  (char_ci_cmp Z.ltb down xs = true <-> chain (fun x y => down x < down y) xs) /\
  (char_ci_cmp Z.gtb down xs = true <-> chain (fun x y => down x > down y) xs) /\
  (char_ci_cmp Z.leb down xs = true <-> chain (fun x y => down x <= down y) xs) /\
  (char_ci_cmp Z.geb down xs = true <-> chain (fun x y => down x >= down y) xs).
Proof.
  intros down xs. repeat match goal with |- _ /\ _ => split end; apply adjacent_chain; intros x y; lia.
Qed.

(** ** Homogeneous vectors *)
Definition in_range (t : elem_type) (z : Z) : Prop :=
  if signed_type t then - 2^(bits t - 1) <= z < 2^(bits t - 1) else 0 <= z < 2^(bits t).
Lemma wrap_in_range : forall t z, 0 < bits t -> in_range t (wrap t z).
Proof.
  intros t z H. unfold in_range, wrap.
  assert (2^(bits t) = 2 * 2^(bits t - 1)).
  { replace (bits t) with (1 + (bits t - 1)) at 1 by lia. rewrite Z.pow_add_r by lia. reflexivity. }
  destruct (signed_type t).
  - pose proof (Z.mod_pos_bound (z + 2^(bits t - 1)) (2^(bits t)) ltac:(apply Z.pow_pos_nonneg; lia)). lia.
  - apply Z.mod_pos_bound. apply Z.pow_pos_nonneg; lia.
Qed.
Lemma input_cast_exact : forall t x z, In t elem_types -> is_int x z -> in_range t z -> input_cast t x = Ok z.
Proof.
  intros t x z Ht Hx Hr.
  assert (Hb : 0 < bits t <= 64) by (cbn in Ht; intuition subst; cbn; lia).
  assert (P : 2^(bits t) = 2 * 2^(bits t - 1)).
  { replace (bits t) with (1 + (bits t - 1)) at 1 by lia. rewrite Z.pow_add_r by lia. reflexivity. }
  assert (P1 : 2^(bits t - 1) <= 2^63) by (apply Z.pow_le_mono_r; lia).
  assert (W : wrap t z = z).
  { unfold wrap, in_range in *. destruct (signed_type t); rewrite Z.mod_small by lia; lia. }
  destruct Hx; subst x; cbn [input_cast]; [rewrite W; reflexivity|].
  unfold in_range in Hr. destruct (signed_type t) eqn:S.
  - replace (get_si z) with z; [rewrite W; reflexivity|]. unfold get_si.
    destruct (Z.ltb_spec z 0).
    + rewrite (Z.mod_small (Z.abs z)) by lia. rewrite Z.mod_small by lia. lia.
    + rewrite Z.mod_small by lia. reflexivity.
  - replace (get_ui z) with z; [rewrite W; reflexivity|]. unfold get_ui.
    rewrite Z.abs_eq by lia. rewrite Z.mod_small by lia. reflexivity.
Qed.
Lemma input_cast_range : forall t x z, In t elem_types -> input_cast t x = Ok z -> in_range t z.
Proof.
  intros t x z Ht. assert (Hb : 0 < bits t) by (cbn in Ht; intuition subst; cbn; lia).
  destruct x; cbn; try discriminate; intros [= <-]; apply wrap_in_range; exact Hb.
Qed.
Lemma h_set_ref : forall t xs k x i z, In t elem_types -> is_int k i -> 0 <= i < len xs -> len xs < 2^64 ->
  is_int x z -> in_range t z ->
  exists ys, h_set t xs k x = Ok ys /\ length ys = length xs /\
    (exists v, h_ref ys k = Ok v /\ is_int v z) /\
    (forall k' i', is_int k' i' -> 0 <= i' < len xs -> i' <> i -> h_ref ys k' = h_ref xs k').
Proof.
  intros t xs k x i z Ht Hk Hi Hl Hx Hz. unfold h_set. rewrite (input_cast_exact t x z) by assumption. cbn [obind].
  destruct (set_ok xs k i z Hk Hi Hl) as (ys & E & _ & L & N & O). exists ys. split; [exact E|]. split; [exact L|].
  assert (Ll : len ys = len xs) by (unfold len; congruence). split.
  - unfold h_ref. destruct (ref_ok ys k i Hk) as (v & Ev & -> & _); [lia|lia|]. cbn [obind].
    eexists. split; [reflexivity|]. right. unfold output_cast. congruence.
  - intros k' i' Hk' Hi' Hn. unfold h_ref.
    destruct (ref_ok ys k' i' Hk') as (v & Ev & -> & _); [lia|lia|].
    destruct (ref_ok xs k' i' Hk') as (w & Ew & -> & _); [lia|lia|].
    rewrite O in Ev by lia. congruence.
Qed.
Lemma h_of_list_ok : forall t xs zs, In t elem_types -> Forall2 (fun x z => is_int x z /\ in_range t z) xs zs ->
  h_of_list t xs = Ok zs.
Proof.
  intros t xs zs Ht H. induction H as [|x z xs zs [Hx Hz] _ IH]; [reflexivity|].
  cbn [h_of_list]. rewrite (input_cast_exact t x z) by assumption. cbn [obind]. rewrite IH. reflexivity.
Qed.

(** ** Bytes *)
Lemma utf8_round_trip : forall cs, cs <> [] -> Forall codepoint cs -> Z.of_nat (length cs) < 2^64 ->
  bytes_to_string (string_to_bytes cs None None) None None = Ok (A_string cs).
Proof.
  intros cs Hne Hcs Hl. unfold bytes_to_string, string_to_bytes. rewrite string_utf8_text by assumption.
  rewrite (span_ok (text cs) None None 0 (len (text cs))); cbn [opt_index]; try reflexivity; try (unfold len; lia).
  cbn [obind fst snd]. unfold slice, len. rewrite Nat2Z.id. change (Z.to_nat 0) with O. cbn [skipn].
  rewrite Nat.sub_0_r, firstn_all. f_equal.
  set (k := Z.to_nat (2^64 - 1)).
  assert (Hk : (length cs <= k)%nat) by (unfold k; lia). clearbody k.
  destruct (op_holds (Read_string k) (stream_of (text cs)) cs Hcs (or_introl (ex_intro _ [] eq_refl)) I) as (s & E & _).
  cbn [run_op] in E. rewrite E. cbn [fst]. destruct cs; [tauto|]. cbn [spec_op fst].
  rewrite firstn_all2 by assumption. reflexivity.
Qed.
