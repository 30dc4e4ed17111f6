(** The ports of Ports.v do what PortsSpec.v prescribes. *)
From Coq Require Import ZArith List Bool Lia ZifyBool.
From Verif Require Import Number NumberProofs TextPort TextPortProofs Sequence SequenceProofs Ports PortsSpec.
Import ListNotations.
Open Scope Z_scope.

(** ** The relation *)
Definition stream_ok (files : nat -> option (list Z)) (n : nat) (all : list Z) (s : ofstream) : Prop :=
  path s = n /\ is_open s = true /\
  exists flushed, all = flushed ++ buffer s /\ offset s = length flushed /\ files n = Some flushed.
Inductive same (files : nat -> option (list Z)) : object -> thing -> Prop :=
| same_vector bs : same files (Bytes bs) (Vector bs)
| same_bytes_in all k o : same files (Bytes_in (skipn k all)) (Source Memory all k o)
| same_file_in n all k s : ahead s = skipn k all -> badbit s = false -> (skipn k all <> [] -> good s = true) ->
    same files (File_in s true) (Source (Disk n) all k true)
| same_file_in_closed n all k s : same files (File_in s false) (Source (Disk n) all k false)
| same_bytes_out w o : same files (Bytes_out w) (Sink Memory false w o)
| same_string_out w o : Forall character w -> same files (String_out (encoded w)) (Sink Memory true w o)
| same_file_out n w s : stream_ok files n w s -> same files (File_out s) (Sink (Disk n) false w true)
| same_file_out_closed n w s : is_open s = false -> same files (File_out s) (Sink (Disk n) false w false)
| same_text_out n w s : Forall character w -> stream_ok files n (encoded w) s -> same files (Text_out s) (Sink (Disk n) true w true)
| same_text_out_closed n w s : is_open s = false -> same files (Text_out s) (Sink (Disk n) true w false).

Definition open_sink (n : nat) (t : thing) : Prop := exists tx w, t = Sink (Disk n) tx w true.
Definition exclusive (ts : list thing) : Prop :=
  forall n i j a b, nth_error ts i = Some a -> nth_error ts j = Some b -> open_sink n a -> open_sink n b -> i = j.
Definition related (w : world) (s : state) : Prop :=
  Forall2 (same (files w)) (objects w) (things s) /\ (forall n, files w n = disk s n) /\ exclusive (things s).

(** ** Lists *)
Lemma set_nth_split {A} : forall i (x : A) l, (i < length l)%nat -> set_nth i x l = firstn i l ++ x :: skipn (S i) l.
Proof.
  induction i; destruct l; cbn; intros H; try lia; [reflexivity|]. rewrite IHi by lia. reflexivity.
Qed.
Lemma forall2_nth {A B} (P : A -> B -> Prop) l m i b :
  Forall2 P l m -> nth_error m i = Some b -> exists a, nth_error l i = Some a /\ P a b /\ (i < length l)%nat.
Proof.
  intros F. revert i. induction F; intros [|i] E; cbn in *; try discriminate.
  - injection E as <-. exists x. split; [reflexivity|]. split; [assumption|lia].
  - destruct (IHF _ E) as (a & E' & Pa & L). exists a. split; [assumption|]. split; [assumption|lia].
Qed.
Lemma forall2_set {A B} (P : A -> B -> Prop) l m i a b :
  Forall2 P l m -> (i < length l)%nat -> P a b -> Forall2 P (set_nth i a l) (firstn i m ++ b :: skipn (S i) m).
Proof.
  intros F. revert i. induction F; intros [|i] L Pab; cbn in *; try lia; constructor; auto. apply IHF; auto; lia.
Qed.
Lemma forall2_impl {A B} (P Q : A -> B -> Prop) l m :
  Forall2 P l m -> (forall a b, In b m -> P a b -> Q a b) -> Forall2 Q l m.
Proof.
  induction 1; intros K; constructor; [apply K; cbn; auto|]. apply IHForall2. intros. apply K; cbn; auto.
Qed.
Lemma forall2_len {A B} (P : A -> B -> Prop) l m : Forall2 P l m -> length l = length m.
Proof. induction 1; cbn; congruence. Qed.
Lemma forall2_app {A B} (P : A -> B -> Prop) l m l' m' : Forall2 P l m -> Forall2 P l' m' -> Forall2 P (l ++ l') (m ++ m').
Proof. induction 1; cbn; auto. Qed.

Lemma nth_change {A} : forall i (x : A) l j, (i < length l)%nat ->
  nth_error (firstn i l ++ x :: skipn (S i) l) j = if Nat.eqb j i then Some x else nth_error l j.
Proof.
  intros i x l j L. rewrite <- set_nth_split by assumption. rewrite set_nth_nth. destruct (Nat.eqb_spec j i).
  - subst. rewrite (proj2 (Nat.ltb_lt i (length l)) L). reflexivity.
  - reflexivity.
Qed.

Lemma forall2_nth_iff {A B} (P : A -> B -> Prop) l m :
  Forall2 P l m <-> length l = length m /\ forall i a b, nth_error l i = Some a -> nth_error m i = Some b -> P a b.
Proof.
  split.
  - intros F. split; [eapply forall2_len; exact F|]. intros i a b Ea Eb.
    destruct (forall2_nth _ _ _ _ _ F Eb) as (a' & E & Pa & _). congruence.
  - revert m. induction l as [|x l IH]; intros [|y m] [L K]; try discriminate; constructor.
    + exact (K O x y eq_refl eq_refl).
    + apply IH. split; [cbn in L; lia|]. intros i a b. exact (K (S i) a b).
Qed.
Lemma nth_lt {A} (l : list A) i a : nth_error l i = Some a -> (i < length l)%nat.
Proof. intros E. apply nth_error_Some. congruence. Qed.
Lemma nth_skipn {A} : forall k (l : list A), nth_error l k = hd_error (skipn k l).
Proof. induction k; destruct l; cbn; auto. Qed.
Lemma skipn_S {A} : forall k (l : list A) b r, skipn k l = b :: r -> skipn (S k) l = r.
Proof. induction k; destruct l; cbn; intros b r E; try discriminate; [injection E; auto|]. eauto. Qed.
Lemma skipn_plus {A} : forall k n (l : list A), skipn n (skipn k l) = skipn (k + n) l.
Proof. induction k; destruct l; cbn; auto. destruct n; reflexivity. Qed.
Lemma skipn_nil_iff {A} : forall k (l : list A), skipn k l = [] <-> (length l <= k)%nat.
Proof. induction k; destruct l; cbn; split; intros; try lia; try discriminate; try reflexivity. - apply IHk in H. lia. - apply IHk. lia. Qed.

(** ** Changing one thing *)
Lemma same_files f f' o t : same f o t -> (forall n, open_sink n t -> f' n = f n) -> same f' o t.
Proof.
  intros E K. destruct E; try (constructor; assumption).
  - constructor. destruct H as (? & ? & fl & ? & ? & ?). split; [assumption|]. split; [assumption|]. exists fl.
    split; [assumption|]. split; [assumption|]. rewrite K; [assumption|]. exists false, w. reflexivity.
  - constructor; [assumption|]. destruct H0 as (? & ? & fl & ? & ? & ?). split; [assumption|]. split; [assumption|]. exists fl.
    split; [assumption|]. split; [assumption|]. rewrite K; [assumption|]. exists true, w. reflexivity.
Qed.
Lemma related_at w s p t : related w s -> thing_at s p = Some t ->
  exists o, find w p = Some o /\ same (files w) o t.
Proof. intros (F & _ & _) E. destruct (forall2_nth _ _ _ _ _ F E) as (o & Eo & So & _). exists o. split; assumption. Qed.
Lemma related_save w s p t0 f f' o t :
  related w s -> thing_at s p = Some t0 ->
  (forall m, f m = f' m) ->
  (forall m, f m <> files w m -> open_sink m t0) ->
  same f o t -> (forall m, open_sink m t -> open_sink m t0) ->
  related (World (set_nth p o (objects w)) f) (State (firstn p (things s) ++ t :: skipn (S p) (things s)) f').
Proof.
  intros (F & D & X) E Ef Ow So Os. unfold thing_at in E. pose proof (nth_lt _ _ _ E) as L.
  pose proof (forall2_len _ _ _ F) as Ln.
  split; [|split].
  - cbn [objects things files disk]. apply forall2_nth_iff. split.
    + rewrite <- (set_nth_split p t) by assumption. rewrite !set_nth_length. exact Ln.
    + intros i a b. rewrite set_nth_nth, nth_change by assumption. rewrite (proj2 (Nat.ltb_lt p (length (objects w))) ltac:(lia)).
      destruct (Nat.eqb_spec i p).
      * intros [= <-] [= <-]. exact So.
      * intros Ea Eb. destruct (forall2_nth _ _ _ _ _ F Eb) as (a' & Ea' & Sa & _). rewrite Ea in Ea'. injection Ea' as <-.
        eapply same_files; [exact Sa|]. intros m Om.
        destruct (f m) eqn:Ea1, (files w m) eqn:Ea2; try reflexivity.
        { destruct (list_eq_dec Z.eq_dec l l0); [congruence|]. exfalso. apply n.
          apply (X m i p b t0 Eb E Om). apply Ow. congruence. }
        all: exfalso; apply n; apply (X m i p b t0 Eb E Om); apply Ow; congruence.
  - intros m. cbn [objects things files disk]. apply Ef.
  - cbn [objects things files disk]. intros m i j a b. rewrite !nth_change by assumption. intros Ea Eb Oa Ob.
    destruct (Nat.eqb_spec i p), (Nat.eqb_spec j p); try congruence.
    + injection Ea as <-. subst i. apply (X m p j t0 b); auto.
    + injection Eb as <-. subst j. apply (X m i p a t0); auto.
    + apply (X m i j a b); auto.
Qed.
Lemma related_change w s p t0 o t :
  related w s -> thing_at s p = Some t0 -> same (files w) o t -> (forall m, open_sink m t -> open_sink m t0) ->
  related (put w p o) (change s p t).
Proof.
  intros R E So Os. unfold put, change. pose proof R as (_ & D & _).
  eapply related_save; eauto. intros m H. tauto.
Qed.
Lemma related_add w s f f' o t :
  related w s -> (forall m, f m = f' m) ->
  (forall m, f m <> files w m -> forall i b, nth_error (things s) i = Some b -> ~ open_sink m b) ->
  same f o t -> (forall m, open_sink m t -> forall i b, nth_error (things s) i = Some b -> ~ open_sink m b) ->
  related (World (objects w ++ [o]) f) (State (things s ++ [t]) f') /\ length (objects w) = length (things s).
Proof.
  intros (F & D & X) Ef Ow So Os. pose proof (forall2_len _ _ _ F) as Ln. split; [|exact Ln].
  split; [|split].
  - cbn. apply forall2_app; [|constructor; [exact So|constructor]].
    apply forall2_nth_iff. split; [exact Ln|]. intros i a b Ea Eb.
    destruct (forall2_nth _ _ _ _ _ F Eb) as (a' & Ea' & Sa & _). rewrite Ea in Ea'. injection Ea' as <-.
    eapply same_files; [exact Sa|]. intros m Om.
    destruct (f m) eqn:E1, (files w m) eqn:E2; try reflexivity.
    { destruct (list_eq_dec Z.eq_dec l l0); [congruence|]. exfalso. apply (Ow m ltac:(congruence) i b Eb Om). }
    all: exfalso; apply (Ow m ltac:(congruence) i b Eb Om).
  - exact Ef.
  - cbn. intros m i j a b Ea Eb Oa Ob.
    assert (K : forall i a, nth_error (things s ++ [t]) i = Some a -> nth_error (things s) i = Some a \/ (i = length (things s) /\ a = t)).
    { intros i0 a0 E0. destruct (Nat.ltb_spec i0 (length (things s))).
      - rewrite nth_error_app1 in E0 by assumption. auto.
      - rewrite nth_error_app2 in E0 by assumption. right. destruct (i0 - length (things s))%nat as [|[|]] eqn:Ei; cbn in E0; try discriminate.
        injection E0 as <-. split; [lia|reflexivity]. }
    destruct (K _ _ Ea) as [Ka|[-> ->]], (K _ _ Eb) as [Kb|[-> ->]]; auto.
    + apply (X m i j a b); auto.
    + exfalso. apply (Os m Ob i a Ka Oa).
    + exfalso. apply (Os m Oa j b Kb Ob).
Qed.
Lemma related_new w s o t : related w s -> same (files w) o t -> (forall m, ~ open_sink m t) ->
  forall a w', new w o = (a, w') -> forall s' r, add s t = (s', r) -> related w' s' /\ r = Reference a.
Proof.
  intros R So Os a w' [= <- <-] s' r [= <- <-].
  pose proof R as (_ & D & _).
  assert (K1 : forall m, files w m <> files w m -> forall i b, nth_error (things s) i = Some b -> ~ open_sink m b)
    by (intros m H; destruct (H eq_refl)).
  assert (K2 : forall m, open_sink m t -> forall i b, nth_error (things s) i = Some b -> ~ open_sink m b)
    by (intros m H; destruct (Os m H)).
  destruct (related_add w s (files w) (disk s) o t R D K1 So K2) as [R' L].
  split; [exact R'|]. rewrite L. reflexivity.
Qed.
Lemma unused_ok s n : unused s n = true -> forall i b, nth_error (things s) i = Some b -> ~ open_sink n b.
Proof.
  unfold unused. intros U i b E (tx & w & ->). apply negb_true_iff in U.
  assert (existsb (on_file n) (things s) = true); [|congruence].
  apply existsb_exists. exists (Sink (Disk n) tx w true). split; [eapply nth_error_In; exact E|]. cbn. apply Nat.eqb_refl.
Qed.

(** ** Numbers *)
Lemma integer_is_int x z : integer x = Some z -> is_int x z.
Proof. destruct x; cbn; intros [= <-]; (left; reflexivity) || (right; reflexivity). Qed.
Lemma integer_cast x z : integer x = Some z -> 0 <= z < 2^64 -> cast_size x = Ok z.
Proof. intros E H. apply cast_index. split; [apply integer_is_int; exact E|exact H]. Qed.
Lemma byte_ok z : byte z = true -> 0 <= z < 256.
Proof. unfold byte. lia. Qed.
Lemma cast_byte x z : integer x = Some z -> byte z = true -> cast_u8 x = Ok z.
Proof.
  intros E B. apply byte_ok in B. destruct x; cbn in E |- *; try discriminate; injection E as ->.
  - rewrite Z.mod_small by lia. reflexivity.
  - rewrite Z.abs_eq by lia. rewrite (Z.mod_small _ (2^64)) by lia. rewrite Z.mod_small by lia. reflexivity.
Qed.
(** ** Ranges *)
Lemma range_ok start stop n i j : range start stop n = Some (i, j) ->
  (i <= j <= n)%nat /\
  match start with Some k => integer k = Some (Z.of_nat i) | None => i = O end /\
  match stop with Some k => integer k = Some (Z.of_nat j) | None => j = n end.
Proof.
  unfold range. intros E.
  assert (K : match match start with None => Some 0 | Some k => integer k end,
          match stop with None => Some (Z.of_nat n) | Some k => integer k end with
    | Some s, Some e => if (0 <=? s) && (s <=? e) && (e <=? Z.of_nat n) then Some (Z.to_nat s, Z.to_nat e) else None
    | _, _ => None
    end = Some (i, j)) by (destruct start, stop; try discriminate E; exact E). clear E.
  destruct start as [k|]; [destruct (integer k) as [a|] eqn:E1; [|discriminate]|];
  (destruct stop as [l|]; [destruct (integer l) as [b|] eqn:E2; [|discriminate]|]);
  match type of K with (if ?c then _ else _) = _ => destruct c eqn:C; [|discriminate] end;
  injection K as <- <-; rewrite ?Z2Nat.id by lia; repeat split; try reflexivity; lia.
Qed.
Lemma opt_small k i : match k with Some k => integer k = Some (Z.of_nat i) | None => i = O end -> small_opt k ->
  opt_index k 0 (Z.of_nat i).
Proof.
  destruct k; cbn; [|intros ->; reflexivity]. unfold small. intros E H. rewrite E in H. split; [apply integer_is_int; exact E|lia].
Qed.
Lemma opt_small_end k j n : match k with Some k => integer k = Some (Z.of_nat j) | None => j = n end -> small_opt k ->
  opt_index k (Z.of_nat n) (Z.of_nat j).
Proof.
  destruct k; cbn; [|intros ->; reflexivity]. unfold small. intros E H. rewrite E in H. split; [apply integer_is_int; exact E|lia].
Qed.
Lemma seq_copy_range {A} (v : list A) start stop i j : range start stop (length v) = Some (i, j) -> small_opt start -> small_opt stop ->
  seq_copy v start stop = Ok (firstn (j - i) (skipn i v)).
Proof.
  intros E H1 H2. destruct (range_ok _ _ _ _ _ E) as (L & Es & Ee).
  unfold seq_copy. rewrite (span_ok v start stop (Z.of_nat i) (Z.of_nat j)); unfold len; try lia.
  - cbn [obind fst snd]. unfold slice. rewrite !Nat2Z.id. reflexivity.
  - apply opt_small; assumption.
  - apply opt_small_end; assumption.
Qed.
(** the copy, or the sequence itself without arguments *)
Lemma copy_range {A} (v : list A) start stop i j : range start stop (length v) = Some (i, j) -> small_opt start -> small_opt stop ->
  match start with None => Ok v | Some _ => seq_copy v start stop end = Ok (firstn (j - i) (skipn i v)).
Proof.
  intros E H1 H2. destruct start; [apply seq_copy_range; assumption|].
  destruct stop; [discriminate|]. destruct (range_ok _ _ _ _ _ E) as (L & -> & ->). rewrite Nat.sub_0_r. cbn [skipn].
  rewrite firstn_all. reflexivity.
Qed.

(** ** Streams *)
Lemma i_read_ok n s : good s = true -> 0 <= n ->
  exists s', i_read n s = (firstn (Z.to_nat n) (ahead s), s') /\ ahead s' = skipn (Z.to_nat n) (ahead s) /\ badbit s' = badbit s /\
    good s' = (n <=? Z.of_nat (length (ahead s))) /\ usable s' = (n <=? Z.of_nat (length (ahead s))).
Proof.
  intros G Hn. unfold i_read. rewrite G. rewrite firstn_length.
  destruct (Z.ltb_spec (Z.of_nat (Nat.min (Z.to_nat n) (length (ahead s)))) n) as [C|C]; eexists; (split; [reflexivity|]);
    cbn [ahead badbit]; (split; [reflexivity|]); (split; [reflexivity|]); unfold good, usable in *; cbn [eofbit failbit badbit].
  - cbn. split; symmetry; lia.
  - destruct (eofbit s), (failbit s), (badbit s); try discriminate G. cbn. split; symmetry; lia.
Qed.
Lemma i_read_bad n s : good s = false -> i_read n s = ([], with_fail s).
Proof. intros G. unfold i_read. rewrite G. reflexivity. Qed.
Lemma o_write_ok f n all s bs : stream_ok f n all s -> stream_ok f n (all ++ bs) (o_write bs s).
Proof.
  intros (P & O & fl & E & Of & Ef). unfold o_write. rewrite O. split; [exact P|]. split; [reflexivity|].
  exists fl. cbn. rewrite app_assoc, <- E. auto.
Qed.
Lemma write_at_end old bs : write_at old (length old) bs = old ++ bs.
Proof.
  unfold write_at. rewrite Nat.sub_diag. cbn [repeat]. rewrite app_nil_r, firstn_all.
  rewrite (proj2 (skipn_nil_iff (length old + length bs) old)) by lia. rewrite app_nil_r. reflexivity.
Qed.
Lemma o_flush_ok w n all s : stream_ok (files w) n all s ->
  exists f s', o_flush w s = (World (objects w) f, s') /\
    (forall m, f m = if Nat.eqb m n then Some all else files w m) /\
    path s' = n /\ is_open s' = true /\ offset s' = length all /\ buffer s' = [].
Proof.
  intros (P & O & fl & E & Of & Ef). unfold o_flush. destruct (buffer s) as [|b r] eqn:B.
  - rewrite app_nil_r in E. subst fl. exists (files w), s. destruct w as [ob fi]; cbn [Ports.objects Ports.files] in *.
    split; [reflexivity|]. split; [|auto]. intros m. destruct (Nat.eqb_spec m n); congruence.
  - rewrite P, Ef, Of, write_at_end, <- E. eexists; eexists. split; [reflexivity|]. split; [reflexivity|].
    cbn. rewrite E, app_length. auto.
Qed.
Lemma o_close_ok w n all s : stream_ok (files w) n all s ->
  exists f s', o_close w s = (World (objects w) f, s') /\
    (forall m, f m = if Nat.eqb m n then Some all else files w m) /\ is_open s' = false.
Proof.
  intros H. destruct (o_flush_ok _ _ _ _ H) as (f & s' & E & F & _). unfold o_close. pose proof H as (_ & -> & _).
  rewrite E. eexists; eexists. split; [reflexivity|]. split; [exact F|]. reflexivity.
Qed.
Lemma encoded_app a b : encoded (a ++ b) = encoded a ++ encoded b.
Proof. apply flat_map_app. Qed.
Lemma encoded_utf8 cs : Forall character cs -> string_utf8 cs = encoded cs.
Proof. exact (string_utf8_text cs). Qed.
Lemma list_ext {A} : forall l m : list A, (forall p, nth_error l p = nth_error m p) -> l = m.
Proof.
  induction l; destruct m; intros K; try reflexivity; try (discriminate (K O)).
  f_equal; [injection (K O); auto|]. apply IHl. intros p. exact (K (S p)).
Qed.
Lemma nth_skipn_add {A} : forall k (l : list A) p, nth_error (skipn k l) p = nth_error l (k + p).
Proof. induction k; intros [|x l] p; cbn; auto; destruct p; reflexivity. Qed.
Lemma nth_firstn {A} : forall k (l : list A) p, (p < k)%nat -> nth_error (firstn k l) p = nth_error l p.
Proof. induction k; destruct l; cbn; intros p H; try lia; auto. destruct p; cbn; auto. apply IHk. lia. Qed.
Lemma copied_list (v bs res : list Z) i : (i + length bs <= length v)%nat -> copied v bs i 0 (length bs) res ->
  res = firstn i v ++ bs ++ skipn (i + length bs) v.
Proof.
  intros L (Lr & C). apply list_ext. intros p. rewrite C. cbn [Nat.add].
  assert (Lf : length (firstn i v) = i) by (rewrite firstn_length; lia).
  destruct (Nat.leb_spec i p), (Nat.ltb_spec p (i + length bs)); cbn [andb].
  - rewrite nth_error_app2, nth_error_app1 by lia. f_equal. lia.
  - rewrite nth_error_app2, nth_error_app2, nth_skipn_add by lia. f_equal. lia.
  - rewrite nth_error_app1, nth_firstn by lia. reflexivity.
  - lia.
Qed.
Lemma copy_into_ok (v bs : list Z) s i : integer s = Some (Z.of_nat i) -> Z.of_nat (length v) < 2^31 -> (i + length bs <= length v)%nat ->
  exists h, vector_copy_into (fun o => if Nat.eqb o 0 then v else bs) 0%nat s 1%nat None None = Ok h /\
    h 0%nat = firstn i v ++ bs ++ skipn (i + length bs) v.
Proof.
  intros E L Li.
  destruct (vector_copy_ok (fun o => if Nat.eqb o 0 then v else bs) 0%nat s 1%nat None None (Z.of_nat i) 0 (len bs)) as (h & Eh & C & _).
  - split; [apply integer_is_int; exact E|lia].
  - reflexivity.
  - reflexivity.
  - unfold len. lia.
  - reflexivity.
  - cbn. unfold len. lia.
  - left. discriminate.
  - exists h. split; [exact Eh|]. cbn [Nat.eqb] in C. rewrite Z.sub_0_r in C. unfold len in C. rewrite !Nat2Z.id in C.
    apply copied_list; assumption.
Qed.
Lemma size_ok v : Z.of_nat (length v) < 2^31 -> integer (@seq_length Z v) = Some (Z.of_nat (length v)).
Proof. intros H. cbn. unfold len. f_equal. rewrite Z.mod_small by lia. lia. Qed.
Lemma sub_integer e s a b : integer e = Some a -> integer s = Some b -> integer (n_sub e s) = Some (a - b).
Proof.
  intros E1 E2. destruct (sub_int e s a b (integer_is_int _ _ E1) (integer_is_int _ _ E2)) as [-> | ->]; reflexivity.
Qed.

(** ** One operation *)
Ltac at_port R H :=
  let o := fresh "o" in let E := fresh "Eo" in let So := fresh "So" in
  destruct (related_at _ _ _ _ R H) as (o & E & So).
Lemma get_bytes_ok w s p k z at_ bs n :
  related w s -> thing_at s p = Some (Source at_ bs n true) -> integer k = Some z -> 0 <= z < 2^64 ->
  ~ request_departs at_ (skipn n bs) z ->
  match skipn n bs with
  | [] => z <> 0 -> exists w', get_bytes w k p = Ok (w', None) /\ related w' s
  | rest => exists w', get_bytes w k p = Ok (w', Some (firstn (Z.to_nat z) rest)) /\
              related w' (change s p (Source at_ bs (n + length (firstn (Z.to_nat z) rest)) true))
  end.
Proof.
  intros R T E Hz D. at_port R T. unfold get_bytes. rewrite (integer_cast _ _ E Hz). cbn [obind]. rewrite Eo.
  inversion So; subst.
  - (* a bytevector port *)
    destruct (skipn n bs) as [|b rest] eqn:Es.
    + intros Nz. exists w. change (len (@nil Z)) with 0. rewrite (proj2 (Z.ltb_lt 0 z)) by lia. auto.
    + unfold request_departs in D. destruct (Z.ltb_spec (len (b :: rest)) z) as [C|C].
      * exfalso. apply D. split; [discriminate|exact C].
      * eexists. split; [reflexivity|]. eapply related_change; eauto; [|intros m (? & ? & ?); discriminate].
        assert (Ek : skipn (Z.to_nat z) (b :: rest) = skipn (n + length (firstn (Z.to_nat z) (b :: rest))) bs).
        { rewrite <- Es, skipn_plus, Es. f_equal. rewrite firstn_length. unfold len in C. lia. }
        rewrite Ek. constructor.
  - (* a file port *)
    unfold request_departs in D. destruct (skipn n bs) as [|b rest] eqn:Es; [tauto|].
    match goal with Ha : ahead ?s0 = _, Hg : _ -> good ?s0 = true |- _ =>
      destruct (i_read_ok z s0 (Hg ltac:(discriminate)) ltac:(lia)) as (s' & Er & Ea & Eb & Eg & _); rewrite Er; rewrite Ha in * end.
    eexists. split; [reflexivity|]. eapply related_change; eauto; [|intros m (? & ? & ?); discriminate].
    assert (Ek : skipn (Z.to_nat z) (b :: rest) = skipn (n + length (firstn (Z.to_nat z) (b :: rest))) bs).
    { rewrite <- skipn_plus, Es. rewrite firstn_length. destruct (Nat.min_spec (Z.to_nat z) (length (b :: rest))) as [[? ->]|[? ->]]; [reflexivity|].
      rewrite !(proj2 (skipn_nil_iff _ _)) by lia. reflexivity. }
    constructor; [congruence|congruence|]. rewrite <- Ek. intros Hn.
    rewrite Eg. apply Z.leb_le. destruct (Nat.le_gt_cases (length (b :: rest)) (Z.to_nat z)); [|lia].
    exfalso. apply Hn. apply skipn_nil_iff. assumption.
Qed.

Ltac no_sink := intros ?m (? & ? & ?); discriminate.
Ltac invs So := inversion So; subst; clear So.
Lemma same_source f o at_ bs k : same f o (Source at_ bs k true) ->
  (at_ = Memory /\ o = Bytes_in (skipn k bs)) \/
  exists n s, at_ = Disk n /\ o = File_in s true /\ ahead s = skipn k bs /\ badbit s = false /\ (skipn k bs <> [] -> good s = true).
Proof. intros So. invs So; [left; auto|]. right. eauto 10. Qed.
Lemma change_same s p t : thing_at s p = Some t -> change s p t = s.
Proof.
  destruct s as [ts d]. unfold change, thing_at. cbn [things disk]. intros T. f_equal.
  rewrite <- (set_nth_split p) by (eapply nth_lt; exact T).
  revert p T. induction ts; intros [|p] T; cbn in *; try discriminate; [congruence|]. f_equal. auto.
Qed.
Lemma read_u8_ok w s p at_ bs k :
  related w s -> thing_at s p = Some (Source at_ bs k true) ->
  exists w', match nth_error bs k with
             | Some b => read_u8 w p = Ok (w', Integer b) /\ related w' (change s p (Source at_ bs (S k) true))
             | None => read_u8 w p = Ok (w', Eof) /\ related w' s
             end.
Proof.
  intros R T. at_port R T. unfold read_u8. rewrite Eo, nth_skipn.
  destruct (same_source _ _ _ _ _ So) as [[-> ->]|(n & s0 & -> & -> & Ha & Hb & Hg)]; clear So.
  - destruct (skipn k bs) as [|b r] eqn:Es; cbn [hd_error]; eexists; (split; [reflexivity|]); [exact R|].
    eapply related_change; eauto; [|no_sink]. rewrite <- (skipn_S _ _ _ _ Es). constructor.
  - destruct (skipn k bs) as [|b r] eqn:Es; cbn [hd_error].
    + assert (K : exists s', i_read 1 s0 = ([], s') /\ usable s' = false /\ ahead s' = [] /\ badbit s' = false).
      { destruct (good s0) eqn:G.
        - destruct (i_read_ok 1 s0 G ltac:(lia)) as (s' & Er & Ea & Eb & _ & Eu). exists s'. rewrite Er, Ea, Eu, Eb, Ha, Hb. cbn. auto.
        - exists (with_fail s0). rewrite i_read_bad by assumption. unfold usable. cbn. auto. }
      destruct K as (s' & -> & Eu & Ea & Eb). rewrite Eu. eexists. split; [reflexivity|].
      rewrite <- (change_same s p _ T). eapply related_change; eauto.
      constructor; [congruence|assumption|congruence].
    + destruct (i_read_ok 1 s0 (Hg ltac:(discriminate)) ltac:(lia)) as (s' & Er & Ea & Eb & Eg & Eu).
      rewrite Er, Eu, Ha. change (Z.to_nat 1) with 1%nat. cbn [firstn length].
      rewrite (proj2 (Z.leb_le 1 (Z.of_nat (S (length r))))) by lia. eexists. split; [reflexivity|].
      eapply related_change; eauto; [|no_sink]. pose proof (skipn_S _ _ _ _ Es) as Er'.
      constructor.
      * rewrite Ea, Ha, Er'. reflexivity.
      * congruence.
      * rewrite Er', Eg, Ha. intros Hn. apply Z.leb_le. cbn [length]. lia.
Qed.
Lemma some_inj {A} (a b : A) : Some a = Some b -> a = b.
Proof. intros [= E]. exact E. Qed.

Lemma same_sink f o at_ tx w : same f o (Sink at_ tx w true) ->
  match at_, tx with
  | Memory, false => o = Bytes_out w
  | Memory, true => o = String_out (encoded w) /\ Forall character w
  | Disk n, false => exists s, o = File_out s /\ stream_ok f n w s
  | Disk n, true => exists s, o = Text_out s /\ stream_ok f n (encoded w) s /\ Forall character w
  end.
Proof. intros So. invs So; eauto. Qed.
Lemma save_ok w s p t0 n tx wr st o :
  related w s -> thing_at s p = Some t0 -> t0 = Sink (Disk n) tx wr true ->
  forall f, (forall m, f m = if Nat.eqb m n then Some (contents tx wr) else files w m) ->
  same f st o -> (forall m, open_sink m o -> m = n) ->
  related (put (World (objects w) f) p st) (change (save s (Disk n) tx wr) p o).
Proof.
  intros R T E f F So Os. pose proof R as (_ & D & _). unfold put, change, save, store_file. cbn [objects files things disk].
  eapply related_save; eauto.
  - intros m. rewrite F. destruct (Nat.eqb m n); auto.
  - intros m. rewrite F. destruct (Nat.eqb_spec m n); [|tauto]. intros _. subst. exists tx, wr. reflexivity.
  - intros m Om. rewrite (Os m Om), E. exists tx, wr. reflexivity.
Qed.
Lemma closed_file f o n tx w : same f o (Sink (Disk n) tx w false) ->
  exists s, is_open s = false /\ (o = File_out s \/ o = Text_out s).
Proof. intros So. invs So; eauto. Qed.
Lemma put_characters_ok w s p at_ wr cs : related w s -> thing_at s p = Some (Sink at_ true wr true) -> Forall character cs ->
  exists w', put_characters w cs p = Ok (w', Unspecified) /\ related w' (change s p (Sink at_ true (wr ++ cs) true)).
Proof.
  intros R T F. at_port R T. unfold put_characters. rewrite Eo. apply same_sink in So. rewrite (encoded_utf8 _ F).
  destruct at_ as [|n].
  - destruct So as [-> Fw]. eexists. split; [reflexivity|]. eapply related_change; eauto; [|no_sink].
    rewrite <- encoded_app. constructor. apply Forall_app. auto.
  - destruct So as (st & -> & Ok_ & Fw). eexists. split; [reflexivity|]. eapply related_change; eauto.
    + constructor; [apply Forall_app; auto|]. rewrite encoded_app. apply o_write_ok. exact Ok_.
    + intros m (tx & v & E). injection E as <- _ _. exists true, wr. reflexivity.
Qed.
Lemma put_bytes_ok w s p at_ wr bs : related w s -> thing_at s p = Some (Sink at_ false wr true) ->
  exists w', match find w p with
    | Some (Bytes_out u) => Ok (put w p (Bytes_out (u ++ bs)), Unspecified)
    | Some (File_out s) => Ok (put w p (File_out (o_write bs s)), Unspecified)
    | _ => Raise
    end = Ok (w', Unspecified) /\ related w' (change s p (Sink at_ false (wr ++ bs) true)).
Proof.
  intros R T. at_port R T. rewrite Eo. apply same_sink in So. destruct at_ as [|n].
  - subst o. eexists. split; [reflexivity|]. eapply related_change; eauto; [|no_sink]. constructor.
  - destruct So as (st & -> & Ok_). eexists. split; [reflexivity|]. eapply related_change; eauto.
    + constructor. apply o_write_ok. exact Ok_.
    + intros m (tx & v & E). injection E as <- _ _. exists false, wr. reflexivity.
Qed.
Lemma range_small start stop n i j : range start stop n = Some (i, j) -> Z.of_nat n < 2^31 -> small_opt start /\ small_opt stop.
Proof.
  intros E L. destruct (range_ok _ _ _ _ _ E) as (Lij & Es & Ee). unfold small_opt, small.
  split; [destruct start; [rewrite Es; lia|exact I]|destruct stop; [rewrite Ee; lia|exact I]].
Qed.
Lemma open_out_ok w s n (tx : bool) : related w s -> unused s n = true ->
  forall o, o = (if tx then Text_out (Ofstream n 0 [] true) else File_out (Ofstream n 0 [] true)) ->
  exists a w', new (truncate w n) o = (a, w') /\
    related w' (fst (add (store_file s n []) (Sink (Disk n) tx [] true))) /\ snd (add (store_file s n []) (Sink (Disk n) tx [] true)) = Reference a.
Proof.
  intros R U o Eo. pose proof R as (_ & D & _).
  destruct (related_add w s (fun p => if Nat.eqb p n then Some [] else files w p) (fun m => if Nat.eqb m n then Some [] else disk s m) o (Sink (Disk n) tx [] true) R) as [R' L].
  - intros m. destruct (Nat.eqb m n); auto.
  - intros m. destruct (Nat.eqb_spec m n); [|tauto]. intros _. subst. exact (unused_ok _ _ U).
  - assert (K : stream_ok (fun p => if Nat.eqb p n then Some [] else files w p) n [] (Ofstream n 0 [] true)).
    { split; [reflexivity|]. split; [reflexivity|]. exists (@nil Z). rewrite Nat.eqb_refl. auto. }
    destruct tx; subst o; constructor; auto.
  - intros m (tx' & w' & E). injection E as <- _ _. exact (unused_ok _ _ U).
  - eexists; eexists. split; [reflexivity|]. split; [exact R'|]. unfold add. cbn [snd]. cbn [things store_file]. cbn [objects truncate]. congruence.
Qed.

Theorem step_ok w s op s' r :
  related w s -> prescribed s op = Some (s', r) -> agrees s op ->
  exists w' r0, step w op = Ok (w', r0) /\ related w' s' /\ same_reply op r0 r.
Proof.
  intros R P G. destruct op; cbn [prescribed step agrees] in *.
  - (* bytevector *)
    destruct (forallb byte bs) eqn:B; [|discriminate]. pose proof (some_inj _ _ P) as E; clear P. unfold bytevector.
    destruct (new w (Bytes bs)) as [a w'] eqn:En. exists w', (Reference a). split; [reflexivity|].
    destruct (related_new w s (Bytes bs) (Vector bs) R ltac:(constructor) ltac:(no_sink) _ _ En _ _ E) as [R' ->].
    split; [exact R'|]. reflexivity.
  - (* bytevector-u8-set! *)
    destruct (thing_at s a) as [[v| |]|] eqn:T; try discriminate.
    destruct (integer k) as [kz|] eqn:Ek; try discriminate. destruct (integer x) as [xz|] eqn:Ex; try discriminate.
    destruct ((0 <=? kz) && (kz <? Z.of_nat (length v)) && byte xz) eqn:C; [|discriminate]. injection P as <- <-.
    apply andb_prop in C. destruct C as [C B]. apply byte_ok in B.
    at_port R T. invs So. unfold bytevector_set. rewrite Eo. unfold h_set.
    rewrite (input_cast_exact (Elem 8 false) x xz); [|cbn; tauto|apply integer_is_int; exact Ex|unfold in_range; cbn; lia].
    cbn [obind]. unfold small in G. rewrite Ek in G. unfold seq_set. rewrite (integer_cast _ _ Ek) by lia. cbn [obind].
    unfold len. rewrite (proj2 (Z.ltb_lt kz _)) by lia. cbn [obind].
    eexists; eexists. split; [reflexivity|]. split; [|reflexivity]. eapply related_change; eauto; [|no_sink].
    rewrite set_nth_split by lia. constructor.
  - (* open-input-bytevector *)
    destruct (thing_at s a) as [[v| |]|] eqn:T; try discriminate. pose proof (some_inj _ _ P) as E; clear P.
    at_port R T. invs So. unfold open_input_bytevector. rewrite Eo.
    destruct (new w (Bytes_in v)) as [p w'] eqn:En. exists w', (Reference p). split; [reflexivity|].
    destruct (related_new w s (Bytes_in v) (Source Memory v 0 true) R (same_bytes_in _ v 0 true) ltac:(no_sink) _ _ En _ _ E) as [R' ->].
    split; [exact R'|]. reflexivity.
  - (* open-output-bytevector *)
    pose proof (some_inj _ _ P) as E; clear P. unfold open_output_bytevector. destruct (new w (Bytes_out [])) as [p w'] eqn:En. exists w', (Reference p). split; [reflexivity|].
    destruct (related_new w s (Bytes_out []) (Sink Memory false [] true) R ltac:(constructor) ltac:(no_sink) _ _ En _ _ E) as [R' ->].
    split; [exact R'|]. reflexivity.
  - (* get-output-bytevector *)
    destruct (thing_at s p) as [[|a b c d|[|] [|] v o]|] eqn:T; try discriminate. pose proof (some_inj _ _ P) as E; clear P.
    at_port R T. invs So. unfold get_output_bytevector. rewrite Eo.
    destruct (new w (Bytes v)) as [a w'] eqn:En. exists w', (Reference a). split; [reflexivity|].
    destruct (related_new w s (Bytes v) (Vector v) R ltac:(constructor) ltac:(no_sink) _ _ En _ _ E) as [R' ->].
    split; [exact R'|]. reflexivity.
  - (* open-output-string *)
    pose proof (some_inj _ _ P) as E; clear P. unfold open_output_string. destruct (new w (String_out [])) as [p w'] eqn:En. exists w', (Reference p). split; [reflexivity|].
    destruct (related_new w s (String_out []) (Sink Memory true [] true) R (same_string_out _ [] true (Forall_nil _)) ltac:(no_sink) _ _ En _ _ E) as [R' ->].
    split; [exact R'|]. reflexivity.
  - (* get-output-string *)
    destruct (thing_at s p) as [[|a b c d|[|] [|] v o]|] eqn:T; try discriminate. injection P as <- <-.
    at_port R T. invs So. unfold get_output_string. rewrite Eo.
    change (encoded v) with (text v). rewrite make_string_text by assumption.
    eexists; eexists. split; [reflexivity|]. split; [exact R|]. reflexivity.
  - (* open-binary-input-file *)
    destruct (unused s n) eqn:U; [|discriminate]. destruct (disk s n) as [bs|] eqn:Ed; [|discriminate]. pose proof (some_inj _ _ P) as E; clear P.
    pose proof R as (_ & D & _). unfold open_binary_input_file. rewrite D, Ed.
    destruct (new w (File_in (stream_of bs) true)) as [p w'] eqn:En. exists w', (Reference p). split; [reflexivity|].
    destruct (related_new w s (File_in (stream_of bs) true) (Source (Disk n) bs 0 true) R) with (a := p) (w' := w') (s' := s') (r := r) as [R' ->]; auto.
    + constructor; reflexivity.
    + no_sink.
    + split; [exact R'|]. reflexivity.
  - (* open-binary-output-file *)
    destruct (unused s n) eqn:U; [|discriminate]. injection P as E1 E2.
    destruct (open_out_ok w s n false R U _ eq_refl) as (a & w' & En & R' & Er). unfold open_binary_output_file. rewrite En.
    exists w', (Reference a). split; [reflexivity|]. rewrite <- E1, <- E2. split; [exact R'|]. unfold same_reply. symmetry. exact Er.
  - (* open-output-file *)
    destruct (unused s n) eqn:U; [|discriminate]. injection P as E1 E2.
    destruct (open_out_ok w s n true R U _ eq_refl) as (a & w' & En & R' & Er). unfold open_output_file. rewrite En.
    exists w', (Reference a). split; [reflexivity|]. rewrite <- E1, <- E2. split; [exact R'|]. unfold same_reply. symmetry. exact Er.
  - (* close-port *)
    unfold close_port. destruct (thing_at s p) as [[|at_ bs k o|at_ tx wr [|]]|] eqn:T; try discriminate; injection P as <- <-; at_port R T; rewrite Eo.
    + invs So.
      * eexists; eexists. split; [reflexivity|]. split; [|reflexivity].
        destruct w as [ob fi]. pose proof (related_change _ _ _ _ (Bytes_in (skipn k bs)) (Source Memory bs k false) R T) as K.
        unfold find in Eo. cbn [objects] in Eo.
        replace (put {| objects := ob; files := fi |} p (Bytes_in (skipn k bs))) with (World ob fi) in K.
        -- apply K; [constructor|no_sink].
        -- unfold put. cbn [objects files]. f_equal. clear -Eo. revert p Eo.
           induction ob; intros [|p] E; cbn in *; try discriminate; [congruence|]. f_equal. auto.
      * eexists; eexists. split; [reflexivity|]. split; [|reflexivity]. eapply related_change; [exact R|exact T|constructor|no_sink].
      * eexists; eexists. split; [reflexivity|]. split; [|reflexivity]. eapply related_change; [exact R|exact T|constructor|no_sink].
    + apply same_sink in So. destruct at_ as [|n].
      * assert (K : o = Bytes_out wr /\ tx = false \/ o = String_out (encoded wr) /\ tx = true /\ Forall character wr).
        { destruct tx; [right; tauto|left; auto]. }
        clear So. assert (Ep : put w p o = w).
        { destruct w as [ob fi]. unfold find in Eo. unfold put. cbn [objects files] in *. f_equal. clear -Eo. revert p Eo.
          induction ob; intros [|p] E; cbn in *; try discriminate; [congruence|]. f_equal. auto. }
        exists w, Unspecified. split; [destruct K as [[-> _]|[-> _]]; reflexivity|]. split; [|reflexivity].
        cbn [save]. rewrite <- Ep. eapply related_change; eauto; [|no_sink]. destruct K as [[-> ->]|(-> & -> & F)]; constructor; exact F.
      * destruct tx.
        -- destruct So as (st & -> & Ok_ & F). destruct (o_close_ok _ _ _ _ Ok_) as (f & st' & Ec & Ef & Eop). rewrite Ec.
           eexists; eexists. split; [reflexivity|]. split; [|reflexivity].
           eapply save_ok; eauto; [constructor; exact Eop|]. intros m (? & ? & ?). discriminate.
        -- destruct So as (st & -> & Ok_). destruct (o_close_ok _ _ _ _ Ok_) as (f & st' & Ec & Ef & Eop). rewrite Ec.
           eexists; eexists. split; [reflexivity|]. split; [|reflexivity].
           eapply save_ok; eauto; [constructor; exact Eop|]. intros m (? & ? & ?). discriminate.
    + assert (Ep : put w p o = w).
      { destruct w as [ob fi]. unfold find in Eo. unfold put. cbn [objects files] in *. f_equal. clear -Eo. revert p Eo.
        induction ob; intros [|p] E; cbn in *; try discriminate; [congruence|]. f_equal. auto. }
      invs So; eexists; eexists; (split; [unfold o_close; try match goal with H : is_open _ = false |- _ => rewrite H end; reflexivity|]); (split; [rewrite ?Ep; exact R|reflexivity]).
  - (* input-port-open? *)
    unfold port_open. destruct (thing_at s p) as [[|at_ bs k o|at_ tx wr o]|] eqn:T; try discriminate; injection P as <- <-; at_port R T; rewrite Eo.
    + invs So; [subst|..]; eexists; eexists; (split; [reflexivity|]); (split; [exact R|]); try reflexivity; cbn; congruence.
    + invs So; eexists; eexists; (split; [reflexivity|]); (split; [exact R|]); cbn; try congruence;
        match goal with H : stream_ok _ _ _ _ |- _ => destruct H as (_ & -> & _); reflexivity | H : is_open _ = _ |- _ => rewrite H; reflexivity end.
  - (* flush-output-port *)
    unfold flush_port. destruct (thing_at s p) as [[|at_ bs k o|at_ tx wr [|]]|] eqn:T; try discriminate. injection P as <- <-. at_port R T. rewrite Eo.
    apply same_sink in So. destruct at_ as [|n].
    + exists w, Unspecified. cbn [save]. destruct tx; [destruct So as [-> _]|subst o]; split; auto; split; auto; reflexivity.
    + assert (Ec : change (save s (Disk n) tx wr) p (Sink (Disk n) tx wr true) = save s (Disk n) tx wr) by (apply change_same; exact T).
      destruct tx.
      * destruct So as (st & -> & Ok_ & F). destruct (o_flush_ok _ _ _ _ Ok_) as (f & st' & Ef & Hf & H1 & H2 & H3 & H4). rewrite Ef.
        eexists; eexists. split; [reflexivity|]. split; [|reflexivity]. rewrite <- Ec. eapply save_ok; eauto.
        -- constructor; [exact F|]. split; [exact H1|]. split; [exact H2|]. exists (encoded wr). rewrite H4, app_nil_r, Hf, Nat.eqb_refl. auto.
        -- intros m (? & ? & E). congruence.
      * destruct So as (st & -> & Ok_). destruct (o_flush_ok _ _ _ _ Ok_) as (f & st' & Ef & Hf & H1 & H2 & H3 & H4). rewrite Ef.
        eexists; eexists. split; [reflexivity|]. split; [|reflexivity]. rewrite <- Ec. eapply save_ok; eauto.
        -- constructor. split; [exact H1|]. split; [exact H2|]. exists wr. rewrite H4, app_nil_r, Hf, Nat.eqb_refl. auto.
        -- intros m (? & ? & E). congruence.
  - (* read-u8 *)
    destruct (thing_at s p) as [[|at_ bs k [|]|]|] eqn:T; try discriminate.
    destruct (read_u8_ok w s p at_ bs k R T) as (w' & K).
    destruct (nth_error bs k); injection P as <- <-; destruct K as [-> R']; eexists; eexists; (split; [reflexivity|]); split; auto; reflexivity.
  - (* peek-u8 *)
    destruct (thing_at s p) as [[|at_ bs k [|]|]|] eqn:T; try discriminate. injection P as <- <-. rewrite nth_skipn.
    at_port R T. unfold peek_u8. rewrite Eo. destruct (same_source _ _ _ _ _ So) as [[-> ->]|(n & s0 & -> & -> & Ha & Hb & Hg)].
    + destruct (skipn k bs); eexists; eexists; (split; [reflexivity|]); split; auto; reflexivity.
    + assert (Ne : skipn k bs <> []) by (rewrite skipn_nil_iff; lia). pose proof (Hg Ne) as Gd.
      assert (Us : usable s0 = true) by (unfold good, usable in *; destruct (eofbit s0), (failbit s0), (badbit s0); auto).
      rewrite Us. unfold i_peek. rewrite Gd, Ha. destruct (skipn k bs) as [|b rest] eqn:Es; [congruence|].
      eexists; eexists. split; [reflexivity|]. split; [|reflexivity].
      rewrite <- (change_same s p _ T). eapply related_change; [exact R|exact T| |auto]. constructor; auto; congruence.
  - (* u8-ready? *)
    destruct (thing_at s p) as [[|at_ bs k [|]|]|] eqn:T; try discriminate. injection P as <- <-.
    at_port R T. unfold u8_ready. rewrite Eo. assert (Ne : skipn k bs <> []) by (rewrite skipn_nil_iff; lia).
    destruct (same_source _ _ _ _ _ So) as [[-> ->]|(n & s0 & -> & -> & Ha & Hb & Hg)].
    + exists w, (Boolean true). destruct (skipn k bs); [congruence|]. split; [reflexivity|]. split; auto; reflexivity.
    + pose proof (Hg Ne) as Gd.
      assert (Us : usable s0 = true) by (unfold good, usable in *; destruct (eofbit s0), (failbit s0), (badbit s0); auto).
      rewrite Us. eexists; eexists. split; [reflexivity|]. split; auto; reflexivity.
  - (* read-bytevector *)
    destruct (thing_at s p) as [[|at_ bs n [|]|]|] eqn:T; try discriminate. destruct (integer k) as [z|] eqn:Ek; try discriminate.
    destruct (Z.ltb_spec z 0); [discriminate|]. destruct G as [Gs Gd]. unfold small in Gs. rewrite Ek in Gs.
    pose proof (get_bytes_ok w s p k z at_ bs n R T Ek ltac:(lia) Gd) as K. unfold read_bytevector.
    destruct (skipn n bs) as [|b rest] eqn:Es.
    + destruct (Z.eqb_spec z 0); [discriminate|]. injection P as <- <-. destruct (K ltac:(assumption)) as (w' & -> & R').
      eexists; eexists. split; [reflexivity|]. split; [exact R'|reflexivity].
    + destruct K as (w' & -> & R'). cbn [obind]. destruct (new w' (Bytes (firstn (Z.to_nat z) (b :: rest)))) as [a w''] eqn:En.
      pose proof (some_inj _ _ P) as E; clear P. eexists; eexists. split; [reflexivity|].
      destruct (related_new _ _ (Bytes (firstn (Z.to_nat z) (b :: rest))) (Vector (firstn (Z.to_nat z) (b :: rest))) R' ltac:(constructor) ltac:(no_sink) _ _ En _ _ E) as [R'' ->].
      split; [exact R''|reflexivity].
  - (* read-bytevector! *)
    destruct (thing_at s a) as [[v| |]|] eqn:Ta; try discriminate. destruct (thing_at s p) as [[|at_ bs n [|]|]|] eqn:T; try discriminate.
    destruct (range start stop (length v)) as [[i j]|] eqn:Er; [|discriminate]. destruct G as [Gs Gd].
    at_port R Ta. invs So. unfold read_bytevector_into. rewrite Eo.
    destruct (range_ok _ _ _ _ _ Er) as (Lij & Es1 & Es2).
    set (st := match start with Some x => x | None => Small 0 end). set (en := match stop with Some x => x | None => seq_length v end).
    assert (E1 : integer st = Some (Z.of_nat i)) by (unfold st; destruct start; [exact Es1|rewrite Es1; reflexivity]).
    assert (E2 : integer en = Some (Z.of_nat j)) by (unfold en; destruct stop; [exact Es2|rewrite Es2; apply size_ok; exact Gs]).
    pose proof (sub_integer _ _ _ _ E2 E1) as E3. rewrite <- Nat2Z.inj_sub in E3 by lia.
    pose proof (get_bytes_ok w s p _ _ at_ bs n R T E3 ltac:(lia) Gd) as K.
    destruct (skipn n bs) as [|b rest] eqn:Es.
    + destruct (Nat.eqb_spec i j); [discriminate|]. injection P as <- <-. destruct (K ltac:(lia)) as (w' & -> & R').
      eexists; eexists. split; [reflexivity|]. split; [exact R'|reflexivity].
    + destruct K as (w' & -> & R'). cbn [obind]. rewrite Nat2Z.id in *. injection P as <- <-.
      set (got := firstn (j - i) (b :: rest)) in *. assert (Lg : (length got <= j - i)%nat) by (unfold got; rewrite firstn_length; lia).
      destruct (copy_into_ok v got st i E1 Gs ltac:(lia)) as (h & -> & Eh). cbn [obind]. rewrite Eh.
      eexists; eexists. split; [reflexivity|]. split; [|reflexivity].
      eapply related_change with (t0 := Vector v); eauto.
      * unfold thing_at, change. cbn [things]. rewrite nth_change by (eapply nth_lt; exact T).
        destruct (Nat.eqb_spec a p); [|exact Ta]. subst. congruence.
      * constructor.
      * no_sink.
  - (* write-u8 *)
    destruct (thing_at s p) as [[|a b c d|at_ [|] wr [|]]|] eqn:T; try discriminate. destruct (integer x) as [z|] eqn:Ex; try discriminate.
    destruct (byte z) eqn:B; [|discriminate]. injection P as <- <-. unfold write_u8. rewrite (cast_byte _ _ Ex B). cbn [obind].
    destruct (put_bytes_ok w s p at_ wr [z] R T) as (w' & -> & R'). eexists; eexists. split; [reflexivity|]. split; [exact R'|reflexivity].
  - (* write-bytevector *)
    destruct (thing_at s a) as [[v| |]|] eqn:Ta; try discriminate. destruct (thing_at s p) as [[|b c d e|at_ [|] wr [|]]|] eqn:T; try discriminate.
    destruct (range start stop (length v)) as [[i j]|] eqn:Er; [|discriminate]. injection P as <- <-. destruct G as [G1 G2].
    at_port R Ta. invs So. unfold write_bytevector. rewrite Eo, (copy_range _ _ _ _ _ Er G1 G2). cbn [obind].
    destruct (put_bytes_ok w s p at_ wr (firstn (j - i) (skipn i v)) R T) as (w' & -> & R').
    eexists; eexists. split; [reflexivity|]. split; [exact R'|reflexivity].
  - (* write-char *)
    destruct (thing_at s p) as [[|a b c' d|at_ [|] wr [|]]|] eqn:T; try discriminate. injection P as <- <-.
    destruct (put_characters_ok w s p at_ wr [c] R T ltac:(auto)) as (w' & E & R'). unfold write_char. rewrite E.
    eexists; eexists. split; [reflexivity|]. split; [exact R'|reflexivity].
  - (* write-string *)
    destruct (thing_at s p) as [[|a b c d|at_ [|] wr [|]]|] eqn:T; try discriminate. destruct (range start stop (length cs)) as [[i j]|] eqn:Er; [|discriminate].
    injection P as <- <-. destruct G as (G1 & G2 & F). unfold write_string. rewrite (copy_range _ _ _ _ _ Er G1 G2). cbn [obind].
    destruct (put_characters_ok w s p at_ wr (firstn (j - i) (skipn i cs)) R T) as (w' & -> & R').
    + apply Forall_forall. intros x Hx. rewrite Forall_forall in F. apply F.
      rewrite <- (firstn_skipn i cs). apply in_or_app. right. rewrite <- (firstn_skipn (j - i) (skipn i cs)). apply in_or_app. left. exact Hx.
    + eexists; eexists. split; [reflexivity|]. split; [exact R'|reflexivity].
Qed.

Theorem run_ok ops : forall w s s' rs, related w s -> prescribed_history s ops = Some (s', rs) -> all_agree s ops ->
  exists w' rs', run w ops = Ok (w', rs') /\ related w' s' /\ same_replies ops rs' rs.
Proof.
  induction ops as [|op ops IH]; cbn [prescribed_history all_agree run]; intros w s s' rs R P G.
  - injection P as <- <-. exists w, []. split; [reflexivity|]. split; [exact R|constructor].
  - destruct G as [G Gs]. destruct (prescribed s op) as [[s1 r]|] eqn:E; [|discriminate].
    destruct (prescribed_history s1 ops) as [[s2 rs2]|] eqn:E2; [|discriminate]. injection P as <- <-.
    destruct (step_ok _ _ _ _ _ R E G) as (w1 & r0 & -> & R1 & Er). cbn [obind fst snd].
    destruct (IH _ _ _ _ R1 E2 Gs) as (w2 & rs0 & -> & R2 & Ers). cbn [obind fst snd].
    eexists; eexists. split; [reflexivity|]. split; [exact R2|]. constructor; assumption.
Qed.
Lemma related_initial d : related (World [] d) (initial_state d).
Proof.
  split; [constructor|]. split; [reflexivity|]. intros n i j a b E. destruct i; discriminate.
Qed.
