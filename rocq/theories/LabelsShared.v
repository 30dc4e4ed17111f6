(** Proofs about write-with-shared-structure (Labels.v, srfi-38.ss). *)
From Coq Require Import ZArith List Bool Arith Lia.
From Verif Require Import Lists ListPredicates Labels LabelsSpec LabelsProofs.
Import ListNotations.

(** ** Association lists *)
Lemma assq_cons : forall w v m al, assq w ((Some v, m) :: al) = if veq w v then Some m else assq w al.
Proof. reflexivity. Qed.
Lemma assq_here : forall v m al, assq v ((Some v, m) :: al) = Some m.
Proof. intros v m al. cbn. destruct (veq v v) eqn:E; [reflexivity|]. pose proof (proj2 (veq_iff v v) eq_refl). congruence. Qed.
Lemma assq_other : forall w v m al, w <> v -> assq w ((Some v, m) :: al) = assq w al.
Proof. intros w v m al N. cbn. destruct (veq w v) eqn:E; [|reflexivity]. apply veq_iff in E. contradiction. Qed.
Lemma assq_app : forall pre al w, assq w al <> None -> assq w (pre ++ al) <> None.
Proof.
  induction pre as [|[[v|] m] pre IH]; intros al w H; cbn; auto. destruct (veq w v); [discriminate|auto].
Qed.
(** How long the list was when a key was first put into it *)
Fixpoint rank (al : alist) (c : val) : nat :=
  match al with
  | [] => 0
  | _ :: r => match assq c r with
              | Some _ => rank r c
              | None => match assq c al with Some _ => S (length r) | None => 0 end
              end
  end.
Lemma rank_grow : forall pre al c, assq c al <> None -> rank (pre ++ al) c = rank al c.
Proof.
  induction pre as [|e pre IH]; intros al c H; [reflexivity|]. cbn [app rank].
  pose proof (assq_app pre al c H) as N. destruct (assq c (pre ++ al)); [|contradiction]. apply IH, H.
Qed.
Lemma rank_le : forall al c, rank al c <= length al.
Proof.
  induction al as [|e al IH]; intros c; cbn [rank length]; [lia|]. specialize (IH c). destruct (assq c al); [lia|].
  destruct (assq c (e :: al)); lia.
Qed.
Lemma rank_new : forall pre al c, assq c al = None -> assq c (pre ++ al) <> None -> length al < rank (pre ++ al) c.
Proof.
  induction pre as [|e pre IH]; intros al c N H; [contradiction|]. cbn [app rank] in *.
  destruct (assq c (pre ++ al)) eqn:E; [apply IH; [exact N|congruence]|].
  destruct (assq c (e :: pre ++ al)); [|contradiction]. rewrite app_length. lia.
Qed.

(** ** scan *)
Definition unnumbered (al : alist) : Prop := forall w n, assq w al <> Some (N n).
Definition grow (al al' : alist) : Prop := (exists pre, al' = pre ++ al) /\ forall w, assq w al = Some T -> assq w al' = Some T.
Definition edge (h : store) (al : alist) (o c : val) : Prop :=
  interesting h c = true -> assq c al = Some T \/ (assq c al = Some F /\ rank al o < rank al c).
Lemma grow_refl : forall al, grow al al.
Proof. intros al. split; [exists []; reflexivity|auto]. Qed.
Lemma grow_trans : forall a b c, grow a b -> grow b c -> grow a c.
Proof. intros a b c ((p & ->) & H) ((q & ->) & K). split; [exists (q ++ p); apply app_assoc|auto]. Qed.
Lemma grow_seen : forall al al' w, grow al al' -> assq w al <> None -> assq w al' <> None.
Proof. intros al al' w ((p & ->) & _). apply assq_app. Qed.
Lemma edge_grow : forall h al al' o c, grow al al' -> unnumbered al' -> assq o al <> None -> edge h al o c -> edge h al' o c.
Proof.
  intros h al al' o c G U O E I. destruct (E I) as [H|(H & R)].
  - left. apply G, H.
  - assert (K : assq c al <> None) by congruence. pose proof (grow_seen _ _ _ G K) as K'.
    destruct G as ((p & ->) & _). destruct (assq c (p ++ al)) as [[| |n]|] eqn:E'; try contradiction; auto.
    + right. split; [reflexivity|]. rewrite !rank_grow by assumption. exact R.
    + destruct (U _ _ E').
Qed.
Definition scanned (h : store) (al al' : alist) : Prop :=
  unnumbered al' /\ grow al al' /\ forall o c, assq o al = None -> assq o al' <> None -> child h o c -> edge h al' o c.
Lemma scanned_refl : forall h al, unnumbered al -> scanned h al al.
Proof. intros h al U. split; [exact U|]. split; [apply grow_refl|]. intros o c N S. contradiction. Qed.
Lemma scanned_trans : forall h a b c, scanned h a b -> scanned h b c -> scanned h a c.
Proof.
  intros h a b c (U1 & G1 & E1) (U2 & G2 & E2). split; [exact U2|]. split; [eapply grow_trans; eassumption|].
  intros o x N S C. destruct (assq o b) eqn:O.
  - eapply edge_grow; [exact G2|exact U2|congruence|]. apply E1; congruence.
  - apply E2; assumption.
Qed.
Definition met (h : store) (al al' : alist) (v : val) : Prop :=
  interesting h v = true -> assq v al' <> None /\ (assq v al <> None -> assq v al' = Some T).
Lemma met_edge : forall h al al' o c, unnumbered al' -> grow al al' -> assq o al <> None -> met h al al' c -> edge h al' o c.
Proof.
  intros h al al' o c U G O M I. destruct (M I) as (S & K). destruct (assq c al) as [m|] eqn:E.
  - left. apply K. discriminate.
  - destruct G as ((p & ->) & _). destruct (assq c (p ++ al)) as [[| |n]|] eqn:E'; try contradiction; auto.
    + right. split; [reflexivity|]. rewrite (rank_grow p al o O). pose proof (rank_le al o).
      pose proof (rank_new p al c E) as R. rewrite E' in R. specialize (R ltac:(discriminate)). lia.
    + destruct (U _ _ E').
Qed.
Lemma scans_spec : forall h f o, (forall al v al', unnumbered al -> f al v = Done al' -> scanned h al al' /\ met h al al' v) ->
  forall cs al al', unnumbered al -> assq o al <> None -> scans f al cs = Done al' ->
  scanned h al al' /\ forall c, In c cs -> edge h al' o c.
Proof.
  intros h f o F. induction cs as [|c cs IH]; intros al al' U O H.
  - injection H as <-. split; [apply scanned_refl, U|]. intros c [].
  - cbn [scans] in H. apply bind_done in H. destruct H as (b & H1 & H2). destruct (F _ _ _ U H1) as (S1 & M1).
    pose proof S1 as (U1 & G1 & _). destruct (IH b al' U1 (grow_seen _ _ _ G1 O) H2) as (S2 & E2).
    pose proof S2 as (U2 & G2 & _).
    split; [eapply scanned_trans; eassumption|]. intros x [<-|I]; [|apply E2, I].
    eapply edge_grow; [exact G2|exact U2|exact (grow_seen _ _ _ G1 O)|]. eapply met_edge; eassumption.
Qed.
(** Putting in a key that was not there, and the parts of it *)
Lemma scanned_add : forall h al al' v, interesting h v = true -> assq v al = None -> unnumbered al ->
  scanned h ((Some v, F) :: al) al' -> (forall c, child h v c -> edge h al' v c) -> scanned h al al' /\ met h al al' v.
Proof.
  intros h al al' v I N U (U1 & G1 & E1) C. split.
  - split; [exact U1|]. split.
    + destruct G1 as ((p & ->) & H). split; [exists (p ++ [(Some v, F)]); rewrite <- app_assoc; reflexivity|].
      intros w T. apply H. rewrite assq_other; [exact T|]. congruence.
    + intros o c No So Ch. destruct (veq o v) eqn:Eo.
      * apply veq_iff in Eo. subst o. apply C, Ch.
      * apply E1; auto. cbn. rewrite Eo. exact No.
  - intros _. split; [|congruence]. apply (grow_seen _ _ v G1). rewrite assq_here. discriminate.
Qed.
Lemma unnumbered_add : forall al v m, unnumbered al -> (forall n, m <> N n) -> unnumbered ((Some v, m) :: al).
Proof. intros al v m U M w n. rewrite assq_cons. destruct (veq w v); [intros [= H]; destruct (M n H) | apply U]. Qed.
Lemma scan_spec : forall fuel h al v al', unnumbered al -> scan fuel h al v = Done al' -> scanned h al al' /\ met h al al' v.
Proof.
  induction fuel as [|fuel IH]; intros h al v al' U H; [discriminate|]. cbn [scan] in H.
  destruct (interesting h v) eqn:I.
  2: { injection H as <-. split; [apply scanned_refl, U|]. intros X. congruence. }
  destruct (assq v al) as [[| |n]|] eqn:E.
  - injection H as <-. split.
    + split; [apply unnumbered_add; [exact U|discriminate]|]. split.
      * split; [exists [(Some v, T)]; reflexivity|]. intros w W. rewrite assq_cons. destruct (veq w v); auto.
      * intros o c No So. exfalso. rewrite assq_cons in So. destruct (veq o v) eqn:Eo; [|contradiction].
        apply veq_iff in Eo. subst o. congruence.
    + intros _. rewrite assq_here. split; [discriminate|auto].
  - injection H as <-. split; [apply scanned_refl, U|]. intros _. split; [congruence|auto].
  - destruct (U _ _ E).
  - destruct v as [|b|p]; try discriminate I.
    assert (U0 : unnumbered ((Some (Ptr p), F) :: al)) by (apply unnumbered_add; [exact U|discriminate]).
    assert (O0 : assq (Ptr p) ((Some (Ptr p), F) :: al) <> None) by (rewrite assq_here; discriminate).
    destruct (nth_error h p) as [[a d|vs|k| |k]|] eqn:En.
    + assert (H' : scans (scan fuel h) ((Some (Ptr p), F) :: al) [d; a] = Done al').
      { cbn [scans]. apply bind_done in H. destruct H as (b & H1 & H2). rewrite H1. cbn [rbind]. rewrite H2. reflexivity. }
      destruct (scans_spec h (scan fuel h) (Ptr p) (IH h) [d; a] _ _ U0 O0 H') as (S & C).
      apply scanned_add; auto. intros c Ch. apply C. destruct (child_pair h p a d c En Ch) as [-> | ->]; cbn; auto.
    + destruct (scans_spec h (scan fuel h) (Ptr p) (IH h) vs _ _ U0 O0 H) as (S & C).
      apply scanned_add; auto. intros c Ch. apply C. eapply child_vec; eassumption.
    + injection H as <-. apply scanned_add; auto; [apply scanned_refl, U0|]. intros c Ch. exfalso. eapply leaf_child; [|exact Ch]. eapply Leaf_text; eassumption.
    + cbn in I. rewrite En in I. discriminate.
    + cbn in I. rewrite En in I. discriminate.
    + cbn in I. rewrite En in I. discriminate.
Qed.
(** It ends *)
Definition unseen (h : store) (al : alist) : nat :=
  length (filter (fun p => match assq (Ptr p) al with None => true | Some _ => false end) (seq 0 (length h))).
Lemma unseen_grow : forall h al al', grow al al' -> unseen h al' <= unseen h al.
Proof.
  intros h al al' G. apply filter_le. intros p. destruct (assq (Ptr p) al) eqn:E; [|reflexivity].
  pose proof (grow_seen al al' (Ptr p) G ltac:(congruence)) as S. destruct (assq (Ptr p) al'); [auto|contradiction].
Qed.
Lemma unseen_add : forall h al p m, p < length h -> assq (Ptr p) al = None -> unseen h ((Some (Ptr p), m) :: al) < unseen h al.
Proof.
  intros h al p m L E. apply filter_lt with (x := p).
  - intros q. rewrite assq_cons. destruct (veq (Ptr q) (Ptr p)); [discriminate|auto].
  - apply in_seq. lia.
  - rewrite assq_here. reflexivity.
  - rewrite E. reflexivity.
Qed.
Lemma scans_ends : forall h k f, (forall al v, unnumbered al -> unseen h al <= k -> exists al', f al v = Done al' /\ scanned h al al') ->
  forall cs al, unnumbered al -> unseen h al <= k -> exists al', scans f al cs = Done al'.
Proof.
  intros h k f F. induction cs as [|c cs IH]; intros al U L; [exists al; reflexivity|]. cbn [scans].
  destruct (F al c U L) as (b & -> & (U1 & G1 & _)). cbn [rbind]. apply IH; [exact U1|]. pose proof (unseen_grow h al b G1). lia.
Qed.
Lemma scan_ends : forall fuel h al v, unnumbered al -> unseen h al < fuel -> exists al', scan fuel h al v = Done al' /\ scanned h al al'.
Proof.
  assert (X : forall fuel h al v, unnumbered al -> unseen h al < fuel -> exists al', scan fuel h al v = Done al').
  { induction fuel as [|fuel IH]; intros h al v U L; [lia|]. cbn [scan].
    assert (IH' : forall k al v, k < fuel -> unnumbered al -> unseen h al <= k -> exists al', scan fuel h al v = Done al' /\ scanned h al al').
    { intros k a w K Ua La. destruct (IH h a w Ua ltac:(lia)) as (b & Hb). exists b. split; [exact Hb|]. eapply scan_spec; eassumption. }
    destruct (interesting h v) eqn:I; [|eauto]. destruct (assq v al) as [[| |n]|] eqn:E; eauto.
    destruct v as [|b|p]; eauto. destruct (nth_error h p) as [[a d|vs|k| |k]|] eqn:En; eauto.
    - assert (Lp : p < length h) by (apply nth_error_Some; congruence).
      pose proof (unseen_add h al p F Lp E). assert (U0 : unnumbered ((Some (Ptr p), F) :: al)) by (apply unnumbered_add; [exact U|discriminate]).
      destruct (IH' (unseen h ((Some (Ptr p), F) :: al)) _ d ltac:(lia) U0 (le_n _)) as (b & -> & (Ub & Gb & _)). cbn [rbind].
      pose proof (unseen_grow h _ _ Gb). destruct (IH' (unseen h b) _ a ltac:(lia) Ub (le_n _)) as (c & -> & _). eauto.
    - assert (Lp : p < length h) by (apply nth_error_Some; congruence).
      pose proof (unseen_add h al p F Lp E). assert (U0 : unnumbered ((Some (Ptr p), F) :: al)) by (apply unnumbered_add; [exact U|discriminate]).
      apply (scans_ends h (unseen h ((Some (Ptr p), F) :: al))); auto. intros. apply (IH' (unseen h ((Some (Ptr p), F) :: al))); auto; lia. }
  intros fuel h al v U L. destruct (X fuel h al v U L) as (b & H). exists b. split; [exact H|]. eapply scan_spec; eassumption.
Qed.
Lemma scan_more : forall fuel h al v al', scan fuel h al v = Done al' -> forall fuel', fuel <= fuel' -> scan fuel' h al v = Done al'.
Proof.
  induction fuel as [|fuel IH]; intros h al v al' H fuel' L; [discriminate|]. destruct fuel' as [|fuel']; [lia|].
  assert (L' : fuel <= fuel') by lia. cbn [scan] in *.
  destruct (interesting h v); [|exact H]. destruct (assq v al) as [[| |n]|]; try exact H. destruct v as [|b|p]; try exact H.
  destruct (nth_error h p) as [[a d|vs|k| |k]|]; try exact H.
  - apply bind_done in H. destruct H as (b & H1 & H2). rewrite (IH _ _ _ _ H1 _ L'). cbn [rbind]. exact (IH _ _ _ _ H2 _ L').
  - revert al' H. generalize ((Some (Ptr p), F) :: al). induction vs as [|w vs IHv]; intros bl al' H; [exact H|]. cbn [scans] in *.
    apply bind_done in H. destruct H as (b & H1 & H2). rewrite (IH _ _ _ _ H1 _ L'). cbn [rbind]. apply IHv, H2.
Qed.

(** ** write-obj *)
Section Write.
Variable h : store.
Variable base : alist.
Hypothesis S : sound h.
Hypothesis U : unnumbered base.
Hypothesis Edges : forall o c, assq o base <> None -> child h o c -> edge h base o c.

(** The association list while writing: numbers in front of what scan found *)
Inductive inv : nat -> alist -> Prop :=
| Inv_0 : inv 0 ((None, N 0) :: base)
| Inv_S : forall m al p, inv m al -> assq (Ptr p) al = Some T -> inv (Datatypes.S m) ((Some (Ptr p), N (Datatypes.S m)) :: al).
Fixpoint scope_al (al : alist) : scope :=
  match al with
  | [] => []
  | (Some (Ptr p), N n) :: al => (n, p) :: scope_al al
  | _ :: al => scope_al al
  end.
Lemma inv_head : forall m al, inv m al -> exists k r, al = (k, N m) :: r.
Proof. intros m al [|m' al' p I A]; eauto. Qed.
Lemma inv_F : forall m al, inv m al -> forall w, assq w al = Some F <-> assq w base = Some F.
Proof.
  induction 1 as [|m al p I IH A]; intros w; [reflexivity|]. rewrite assq_cons. destruct (veq w (Ptr p)) eqn:E; [|apply IH].
  apply veq_iff in E. subst w. split; [discriminate|]. intros H. apply IH in H. congruence.
Qed.
Lemma inv_seen : forall m al, inv m al -> forall w, assq w al <> None <-> assq w base <> None.
Proof.
  induction 1 as [|m al p I IH A]; intros w; [reflexivity|]. rewrite assq_cons. destruct (veq w (Ptr p)) eqn:E; [|apply IH].
  apply veq_iff in E. subst w. split; [|discriminate]. intros _. apply IH. congruence.
Qed.
Lemma scope_base : forall al, unnumbered al -> forall n p, In (n, p) (scope_al al) -> False \/ exists pre post, al = pre ++ (Some (Ptr p), N n) :: post.
Proof.
  intros al _. induction al as [|e al IH]; intros n p I; [destruct I|]. right.
  assert (X : In (n, p) (scope_al al) \/ e = (Some (Ptr p), N n)).
  { destruct e as [[[|b|q]|] [| |k]]; cbn in I; auto. destruct I as [[= <- <-]|I]; auto. }
  destruct X as [X| ->]; [|exists [], al; reflexivity]. destruct (IH n p X) as [[]|(pre & post & ->)].
  exists (e :: pre), post. reflexivity.
Qed.
Hypothesis Plain : scope_al base = [].
Lemma inv_bound : forall m al, inv m al -> forall n p, In (n, p) (scope_al al) -> 1 <= n <= m.
Proof.
  induction 1 as [|m al q I IH A]; intros n p X; cbn in X; [rewrite Plain in X; destruct X|].
  destruct X as [[= <- <-]|X]; [lia|]. specialize (IH _ _ X). lia.
Qed.
Lemma stands_in : forall n p E, stands n p E -> In (n, p) E.
Proof. induction 1; [left; reflexivity | right; assumption]. Qed.
Lemma inv_stands : forall m al, inv m al -> forall n p, assq (Ptr p) al = Some (N n) -> stands n p (scope_al al).
Proof.
  induction 1 as [|m al q I IH A]; intros n p H.
  - cbn in H. destruct (U _ _ H).
  - rewrite assq_cons in H. destruct (veq (Ptr p) (Ptr q)) eqn:E.
    + apply veq_iff in E. injection E as ->. injection H as <-. constructor.
    + specialize (IH _ _ H). cbn [scope_al]. constructor; [|exact IH].
      intros <-. pose proof (inv_bound _ _ I _ _ (stands_in _ _ _ IH)). lia.
Qed.
Definition pending (al : alist) : nat :=
  length (filter (fun p => match assq (Ptr p) al with Some T => true | _ => false end) (seq 0 (length h))).
Lemma pending_new : forall al p n, p < length h -> assq (Ptr p) al = Some T -> pending ((Some (Ptr p), N n) :: al) < pending al.
Proof.
  intros al p n L E. apply filter_lt with (x := p).
  - intros q. rewrite assq_cons. destruct (veq (Ptr q) (Ptr p)); [discriminate|auto].
  - apply in_seq. lia.
  - rewrite assq_here. reflexivity.
  - rewrite E. reflexivity.
Qed.

(** What is obtained with any fuel that is large enough *)
Definition does (k : part) (al : alist) (v : val) (ts : list token) (al' : alist) : Prop :=
  exists f, forall fuel, f <= fuel -> write_obj fuel k h al v = Done (ts, al').
Definition obj_ok (k : nat) (v : val) : Prop := forall m al, inv m al -> pending al <= k ->
  exists ts m' al', does Obj_part al v ts al' /\ inv m' al' /\ pending al' <= pending al /\ shows h (scope_al al) ts v (scope_al al').
Definition cdr_ok (k : nat) (v : val) : Prop := forall m al, inv m al -> pending al <= k ->
  exists ts m' al', does Cdr_part al v ts al' /\ inv m' al' /\ pending al' <= pending al /\ shows_rest h (scope_al al) ts v (scope_al al').
Definition body_ok (k : nat) (v : val) : Prop := forall m al, inv m al -> pending al <= k ->
  exists ts m' al', does Interesting al v ts al' /\ inv m' al' /\ pending al' <= pending al /\ shows h (scope_al al) ts v (scope_al al') /\
    forall n, ts <> [TUse n].

Lemma each_ok : forall k vs, (forall v, In v vs -> obj_ok k v) -> forall m al, inv m al -> pending al <= k ->
  exists ts m' al', (exists f, forall fuel, f <= fuel -> each_obj (write_obj fuel Obj_part h) al vs = Done (ts, al')) /\
    inv m' al' /\ pending al' <= pending al /\ shows_all h (scope_al al) ts vs (scope_al al').
Proof.
  intros k. induction vs as [|v vs IH]; intros H m al I L.
  - exists [], m, al. repeat split; auto; [exists 0; reflexivity | constructor].
  - destruct (H v (or_introl eq_refl) m al I L) as (ts & m1 & al1 & (f1 & D1) & I1 & L1 & S1).
    destruct (IH (fun w X => H w (or_intror X)) m1 al1 I1 ltac:(lia)) as (us & m2 & al2 & (f2 & D2) & I2 & L2 & S2).
    exists (ts ++ us), m2, al2. repeat split; auto; [|lia|econstructor; eassumption].
    exists (f1 + f2). intros fuel LF. cbn [each_obj]. rewrite D1 by lia. cbn [rbind]. rewrite D2 by lia. reflexivity.
Qed.
Lemma pair_ok : forall k a d, obj_ok k a -> cdr_ok k d -> forall m al, inv m al -> pending al <= k ->
  exists ts us m' al1 al', does Obj_part al a ts al1 /\ does Cdr_part al1 d us al' /\ inv m' al' /\ pending al' <= pending al /\
    shows h (scope_al al) ts a (scope_al al1) /\ shows_rest h (scope_al al1) us d (scope_al al').
Proof.
  intros k a d A D m al I L. destruct (A m al I L) as (ts & m1 & al1 & D1 & I1 & L1 & S1).
  destruct (D m1 al1 I1 ltac:(lia)) as (us & m2 & al2 & D2 & I2 & L2 & S2).
  exists ts, us, m2, al1, al2. repeat split; auto. lia.
Qed.
Lemma interesting_ok : forall k v, interesting h v = true -> (forall c, child h v c -> obj_ok k c /\ cdr_ok k c) -> body_ok k v.
Proof.
  intros k v I C m al Iv L. destruct v as [|b|p]; try discriminate I. cbn in I.
  destruct (nth_error h p) as [[a d|vs|n| |n]|] eqn:E; try discriminate I.
  - destruct (pair_ok k a d) with (m := m) (al := al) as (ts & us & m2 & al1 & al2 & (f1 & D1) & (f2 & D2) & I2 & L2 & S1 & S2); auto.
    { apply C. eapply Child_car. exact E. } { apply C. eapply Child_cdr. exact E. }
    exists (TOpen :: ts ++ us), m2, al2. repeat split; auto; [|econstructor; eassumption|discriminate].
    exists (Datatypes.S (f1 + f2)). intros [|fuel] LF; [lia|]. cbn [write_obj]. rewrite E, D1 by lia. cbn [rbind]. rewrite D2 by lia. reflexivity.
  - destruct (each_ok k vs) with (m := m) (al := al) as (ts & m2 & al2 & (f & D) & I2 & L2 & S2); auto.
    { intros v J. apply C. eapply Child_item; eassumption. }
    exists (TVec :: ts ++ [TClose]), m2, al2. repeat split; auto; [|eapply Shows_vector; eassumption|discriminate].
    exists (Datatypes.S f). intros [|fuel] LF; [lia|]. cbn [write_obj]. rewrite E, D by lia. reflexivity.
  - exists [TAtom (Ptr p)], m, al. repeat split; auto; [|apply Shows_atom; eapply Atomic_text; exact E|discriminate].
    exists 1. intros [|fuel] LF; [lia|]. cbn [write_obj]. rewrite E. reflexivity.
Qed.
Lemma plain_shows : forall v E, valid h v -> interesting h v = false -> shows h E (plain h v) v E.
Proof.
  intros v E V I. destruct v as [|b|p]; cbn [plain].
  - constructor.
  - constructor. constructor.
  - cbn in I. destruct (nth_error h p) as [[a d|vs|n| |n]|] eqn:En; try discriminate I.
    + destruct vs as [|w vs]; [|discriminate I]. apply (Shows_vector h E p [] []); [exact En|constructor].
    + constructor. eapply Atomic_text. exact En.
    + constructor. eapply Atomic_other. exact En.
    + destruct (proj1 S p n En).
    + specialize (V p eq_refl). apply nth_error_None in En. lia.
Qed.
(** Parts that scan has seen *)
Definition known (v : val) : Prop := valid h v /\ (interesting h v = true -> assq v base <> None).
Lemma known_child : forall v c, known v -> interesting h v = true -> child h v c -> known c.
Proof.
  intros v c (V & A) I C. split; [eapply (proj2 S); exact C|]. intros Ic. destruct (Edges v c (A I) C Ic) as [H|(H & _)]; congruence.
Qed.
Lemma plain_ok : forall k v, known v -> interesting h v = false -> obj_ok k v.
Proof.
  intros k v (V & _) I m al Iv L. exists (plain h v), m, al. repeat split; auto; [|apply plain_shows; assumption].
  exists 1. intros [|fuel] LF; [lia|]. cbn [write_obj]. rewrite I. reflexivity.
Qed.
Lemma dot_ok : forall k v, v <> Nil -> known v -> (interesting h v = true -> assq v base <> Some F) -> obj_ok k v -> cdr_ok k v.
Proof.
  intros k v Nn (V & _) NF O m al Iv L. destruct (O m al Iv L) as (ts & m1 & al1 & (f & D) & I1 & L1 & S1).
  exists (TDot :: ts ++ [TClose]), m1, al1. repeat split; auto; [|apply Rest_dot; exact S1].
  exists (Datatypes.S (Datatypes.S f)). intros [|fuel] LF; [lia|]. cbn [write_obj]. destruct v as [|b|q]; [congruence| |].
  - specialize (D fuel ltac:(lia)). destruct fuel as [|fuel]; [lia|]. cbn [write_obj interesting] in D. injection D as <- <-. reflexivity.
  - assert (R : write_obj fuel Obj_part h al (Ptr q) = Done (ts, al1)) by (apply D; lia).
    destruct (nth_error h q) as [[a d|vs|n| |n]|] eqn:E; try (rewrite R; reflexivity).
    destruct (assq (Ptr q) al) as [[| |n]|] eqn:A.
    + apply (inv_F _ _ Iv) in A. destruct NF; [cbn; rewrite E; reflexivity|exact A].
    + rewrite R. reflexivity.
    + rewrite R. reflexivity.
    + exfalso. destruct fuel as [|fuel]; [lia|]. cbn [write_obj interesting] in R. rewrite E, A in R. discriminate.
Qed.
Lemma close_ok : forall k, cdr_ok k Nil.
Proof.
  intros k m al I L. exists [TClose], m, al. repeat split; auto; [|constructor].
  exists 1. intros [|fuel] LF; [lia|]. reflexivity.
Qed.
Lemma val_nil_dec : forall v : val, v = Nil \/ v <> Nil.
Proof. intros [|b|p]; [left; reflexivity|right; discriminate|right; discriminate]. Qed.

Lemma all_ok : forall k v, known v -> obj_ok k v /\ cdr_ok k v.
Proof.
  induction k as [k IHk] using lt_wf_ind.
  (* parts that occur more than once *)
  assert (TK : forall v, known v -> interesting h v = true -> assq v base <> Some F -> obj_ok k v).
  { intros v K I NF m al Iv L. pose proof (proj2 K I) as Sn. apply (inv_seen _ _ Iv) in Sn.
    destruct v as [|b|p]; try discriminate I. pose proof (proj1 K p eq_refl) as Lp.
    destruct (assq (Ptr p) al) as [[| |n]|] eqn:A; [apply (inv_F _ _ Iv) in A; contradiction| | |contradiction].
    - pose proof (pending_new al p (Datatypes.S m) Lp A) as Lt. destruct (inv_head m al Iv) as (hk & r & Eal).
      assert (B : body_ok (pending ((Some (Ptr p), N (Datatypes.S m)) :: al)) (Ptr p)).
      { apply interesting_ok; [exact I|]. intros c Ch. apply IHk; [lia|]. eapply known_child; eassumption. }
      destruct (B (Datatypes.S m) _ (Inv_S m al p Iv A) (le_n _)) as (ts & m1 & al1 & (f & D) & I1 & L1 & S1 & NU).
      exists (TDecl (Datatypes.S m) :: ts), m1, al1. repeat split; auto; [|lia|].
      + exists (Datatypes.S f). intros [|fuel] LF; [lia|]. cbn [write_obj]. rewrite I, A. rewrite Eal. rewrite <- Eal.
        rewrite D by lia. reflexivity.
      + cbn [scope_al] in S1. apply Shows_decl; auto. intros q X. apply (inv_bound _ _ Iv) in X. lia.
    - exists [TUse n], m, al. repeat split; auto; [|constructor; eapply inv_stands; eassumption].
      exists 1. intros [|fuel] LF; [lia|]. cbn [write_obj]. rewrite I, A. reflexivity. }
  assert (NFK : forall v, known v -> assq v base <> Some F -> obj_ok k v /\ cdr_ok k v).
  { intros v K NF. assert (O : obj_ok k v).
    { destruct (interesting h v) eqn:I; [apply TK; assumption | apply plain_ok; assumption]. }
    split; [exact O|]. destruct (val_nil_dec v) as [-> | Nn]; [apply close_ok | apply dot_ok; auto]. }
  (* parts that occur once, the youngest first *)
  assert (FK : forall r v, length base - rank base v <= r -> known v -> interesting h v = true -> assq v base = Some F -> obj_ok k v /\ cdr_ok k v).
  { induction r as [r IHr] using lt_wf_ind. intros v Lr K I A.
    assert (C : forall c, child h v c -> obj_ok k c /\ cdr_ok k c).
    { intros c Ch. pose proof (known_child v c K I Ch) as Kc. destruct (interesting h c) eqn:Ic.
      - assert (Sv : assq v base <> None) by congruence. destruct (Edges v c Sv Ch Ic) as [H|(H & R)].
        + apply NFK; [exact Kc|congruence].
        + pose proof (rank_le base c). apply (IHr (length base - rank base c)); auto. lia.
      - split; [apply plain_ok; assumption|]. destruct (val_nil_dec c) as [-> | Nn]; [apply close_ok|].
        apply dot_ok; auto; [|apply plain_ok; assumption]. congruence. }
    assert (B : body_ok k v) by (apply interesting_ok; assumption).
    split.
    - intros m al Iv L. destruct (B m al Iv L) as (ts & m1 & al1 & (f & D) & I1 & L1 & S1 & _).
      exists ts, m1, al1. repeat split; auto. exists (Datatypes.S f). intros [|fuel] LF; [lia|]. cbn [write_obj].
      apply (inv_F _ _ Iv) in A. rewrite I, A. apply D. lia.
    - intros m al Iv L. pose proof A as A'. apply (inv_F _ _ Iv) in A'. destruct v as [|b|p]; try discriminate I.
      destruct (nth_error h p) as [[a d|vs|n| |n]|] eqn:E.
      + destruct (pair_ok k a d) with (m := m) (al := al) as (ts & us & m2 & al1 & al2 & (f1 & D1) & (f2 & D2) & I2 & L2 & S1 & S2); auto.
        { apply C. eapply Child_car. exact E. } { apply C. eapply Child_cdr. exact E. }
        exists (ts ++ us), m2, al2. repeat split; auto; [|eapply Rest_pair; eassumption].
        exists (Datatypes.S (f1 + f2)). intros [|fuel] LF; [lia|]. cbn [write_obj]. rewrite E, A', D1 by lia. cbn [rbind]. rewrite D2 by lia. reflexivity.
      + destruct (B m al Iv L) as (ts & m1 & al1 & (f & D) & I1 & L1 & S1 & _).
        exists (TDot :: ts ++ [TClose]), m1, al1. repeat split; auto; [|apply Rest_dot; exact S1].
        exists (Datatypes.S (Datatypes.S f)). intros [|[|fuel]] LF; [lia|lia|]. cbn [write_obj]. rewrite E, I, A'.
        specialize (D fuel ltac:(lia)). rewrite D. reflexivity.
      + destruct (B m al Iv L) as (ts & m1 & al1 & (f & D) & I1 & L1 & S1 & _).
        exists (TDot :: ts ++ [TClose]), m1, al1. repeat split; auto; [|apply Rest_dot; exact S1].
        exists (Datatypes.S (Datatypes.S f)). intros [|[|fuel]] LF; [lia|lia|]. cbn [write_obj]. rewrite E, I, A'.
        specialize (D fuel ltac:(lia)). rewrite D. reflexivity.
      + cbn in I. rewrite E in I. discriminate.
      + cbn in I. rewrite E in I. discriminate.
      + cbn in I. rewrite E in I. discriminate. }
  intros v K. destruct (interesting h v) eqn:I.
  - destruct (assq v base) as [[| |n]|] eqn:A; [eapply FK; eauto | | |].
    + apply NFK; [exact K|congruence].
    + destruct (U _ _ A).
    + destruct (proj2 K I A).
  - split; [apply plain_ok; assumption|]. destruct (val_nil_dec v) as [-> | Nn]; [apply close_ok|].
    apply dot_ok; auto; [congruence|apply plain_ok; assumption].
Qed.
End Write.

Lemma scan_scope : forall fuel h al v al', scan fuel h al v = Done al' -> scope_al al = [] -> scope_al al' = [].
Proof.
  induction fuel as [|fuel IH]; intros h al v al' H E; [discriminate|]. cbn [scan] in H. destruct (interesting h v).
  2: { injection H as <-. exact E. }
  assert (E1 : forall m, (m = F \/ m = T) -> scope_al ((Some v, m) :: al) = []).
  { intros m [-> | ->]; destruct v; exact E. }
  destruct (assq v al) as [[| |n]|]; try (injection H as <-; auto; fail).
  destruct v as [|b|p]; try (injection H as <-; auto; fail).
  specialize (E1 F (or_introl eq_refl)).
  destruct (nth_error h p) as [[a d|vs|k| |k]|]; try (injection H as <-; auto; fail).
  - apply bind_done in H. destruct H as (b & H1 & H2). eapply IH; [exact H2|]. eapply IH; [exact H1|exact E1].
  - revert H E1. generalize ((Some (Ptr p), F) :: al). induction vs as [|w vs IHv]; intros bl H E1.
    + injection H as <-. exact E1.
    + cbn [scans] in H. apply bind_done in H. destruct H as (b & H1 & H2). eapply IHv; [exact H2|]. eapply IH; [exact H1|exact E1].
Qed.
(** ** Only what is shared gets a number *)
Section Events.
Variable h : store.
Variable root : val.
Definition event := option (nat * nat).
(** The references scan has followed so far *)
Definition einv (al : alist) (Ev : list event) : Prop :=
  (forall w, assq w al <> None -> exists r, In r Ev /\ refers h root r w) /\
  (forall w, assq w al = Some T -> shared h root w) /\
  (forall p i, In (Some (p, i)) Ev -> assq (Ptr p) al <> None).
Definition follows (al : alist) (Ev : list event) (r : event) (al' : alist) (Ev' : list event) : Prop :=
  einv al' Ev' /\ (forall x, In x Ev' -> In x Ev \/ x = r \/ exists p i, x = Some (p, i) /\ assq (Ptr p) al = None).
Definition tracked (f : alist -> val -> res alist) : Prop := forall al Ev v r al', unnumbered al -> einv al Ev -> refers h root r v -> ~ In r Ev ->
  (forall o i, r = Some (o, i) -> assq (Ptr o) al <> None) -> reach h root v -> f al v = Done al' ->
  exists Ev', follows al Ev r al' Ev'.
Lemma children_tracked : forall f p, tracked f -> (forall al v al', unnumbered al -> f al v = Done al' -> scanned h al al') ->
  reach h root (Ptr p) ->
  forall cs al Ev al', unnumbered al -> einv al Ev -> assq (Ptr p) al <> None ->
  (forall i c, In (i, c) cs -> refers h root (Some (p, i)) c /\ ~ In (Some (p, i)) Ev) -> NoDup (map fst cs) ->
  scans f al (map snd cs) = Done al' ->
  exists Ev', einv al' Ev' /\ forall x, In x Ev' -> In x Ev \/ exists q i, x = Some (q, i) /\ (q = p \/ assq (Ptr q) al = None).
Proof.
  intros f p TF SF Rp. induction cs as [|(i & c) cs IH]; intros al Ev al' U I Sp R ND H.
  - injection H as <-. exists Ev. split; auto.
  - cbn [map snd scans] in H. apply bind_done in H. destruct H as (b & H1 & H2). destruct (R i c (or_introl eq_refl)) as (Rc & Nc).
    destruct (SF _ _ _ U H1) as (Ub & Gb & _).
    destruct (TF al Ev c (Some (p, i)) b) as (Ev1 & I1 & X1); auto.
    { intros o j [= <- <-]. exact Sp. }
    { destruct Rc as (_ & o & Eo & Ei). eapply Reach_step; [exact Rp|]. destruct o as [a d|vs|n| |n]; cbn in Ei.
      - destruct i as [|[|i]]; cbn in Ei; [injection Ei as <-; eapply Child_car; exact Eo | injection Ei as <-; eapply Child_cdr; exact Eo |].
        destruct i; discriminate.
      - eapply Child_item; [exact Eo|]. eapply nth_error_In. exact Ei.
      - destruct i; discriminate.
      - destruct i; discriminate.
      - destruct i; discriminate. }
    cbn [map fst] in ND. inversion ND as [|? ? Ni ND']; subst.
    destruct (IH b Ev1 al' Ub I1 (grow_seen _ _ _ Gb Sp)) as (Ev2 & I2 & X2); auto.
    { intros j d J. destruct (R j d (or_intror J)) as (Rd & Nd). split; [exact Rd|]. intros Y.
      destruct (X1 _ Y) as [Z|[Z|(q & k & [= <- <-] & Z)]]; [contradiction| |contradiction].
      injection Z as <-. apply Ni. change j with (fst (j, d)). apply in_map. exact J. }
    exists Ev2. split; [exact I2|]. intros x Y. destruct (X2 x Y) as [Z|(q & k & -> & [Z|Z])].
    + destruct (X1 x Z) as [W|[-> | (q & k & -> & W)]]; eauto 8.
    + right. exists q, k. auto.
    + right. exists q, k. split; [reflexivity|]. right. destruct (assq (Ptr q) al) eqn:E; [|reflexivity]. exfalso.
      apply (grow_seen _ _ (Ptr q) Gb); congruence.
Qed.
Lemma index_in : forall (vs : list val) k i c, In (i, c) (combine (seq k (length vs)) vs) -> exists j, i = k + j /\ nth_error vs j = Some c.
Proof.
  induction vs as [|v vs IH]; intros k i c I; [destruct I|]. cbn in I. destruct I as [[= <- <-]|I].
  - exists 0. split; [lia|reflexivity].
  - destruct (IH (Datatypes.S k) i c I) as (j & -> & E). exists (Datatypes.S j). split; [lia|exact E].
Qed.
Lemma combine_fst : forall (vs : list val) k, map fst (combine (seq k (length vs)) vs) = seq k (length vs).
Proof. induction vs as [|v vs IH]; intros k; [reflexivity|]. cbn. rewrite IH. reflexivity. Qed.
Lemma combine_snd : forall (vs : list val) k, map snd (combine (seq k (length vs)) vs) = vs.
Proof. induction vs as [|v vs IH]; intros k; [reflexivity|]. cbn. rewrite IH. reflexivity. Qed.
Lemma scan_tracked : forall fuel, tracked (scan fuel h).
Proof.
  induction fuel as [|fuel IH]; intros al Ev v r al' U I R Nr O Rv H; [discriminate|]. cbn [scan] in H.
  destruct (interesting h v) eqn:Iv.
  2: { injection H as <-. exists Ev. split; auto. }
  destruct (assq v al) as [[| |n]|] eqn:E.
  - injection H as <-. exists (r :: Ev). destruct I as (I1 & I2 & I3). split.
    + split; [|split].
      * intros w W. rewrite assq_cons in W. destruct (veq w v) eqn:Ew.
        -- apply veq_iff in Ew. subst w. exists r. split; [left; reflexivity|exact R].
        -- destruct (I1 w W) as (s & J & K). exists s. split; [right; exact J|exact K].
      * intros w W. rewrite assq_cons in W. destruct (veq w v) eqn:Ew.
        -- apply veq_iff in Ew. subst w. destruct (I1 v) as (s & J & K); [congruence|]. exists r, s. repeat split; auto. intros ->. contradiction.
        -- apply I2, W.
      * intros p i [->|J].
        -- apply (assq_app [(Some v, T)]). eapply O. reflexivity.
        -- apply (assq_app [(Some v, T)]). eapply I3. exact J.
    + intros x [->|J]; auto.
  - injection H as <-. exists Ev. split; auto.
  - destruct (U _ _ E).
  - destruct v as [|b|p]; try discriminate Iv.
    assert (U0 : unnumbered ((Some (Ptr p), F) :: al)) by (apply unnumbered_add; [exact U|discriminate]).
    assert (S0 : assq (Ptr p) ((Some (Ptr p), F) :: al) <> None) by (rewrite assq_here; discriminate).
    assert (I0 : einv ((Some (Ptr p), F) :: al) (r :: Ev)).
    { destruct I as (I1 & I2 & I3). split; [|split].
      - intros w W. rewrite assq_cons in W. destruct (veq w (Ptr p)) eqn:Ew.
        + apply veq_iff in Ew. subst w. exists r. split; [left; reflexivity|exact R].
        + destruct (I1 w W) as (s & J & K). exists s. split; [right; exact J|exact K].
      - intros w W. rewrite assq_cons in W. destruct (veq w (Ptr p)); [discriminate|]. apply I2, W.
      - intros q i [->|J].
        + apply (assq_app [(Some (Ptr p), F)]). eapply O. reflexivity.
        + apply (assq_app [(Some (Ptr p), F)]). eapply I3. exact J. }
    assert (Fresh : forall i, ~ In (Some (p, i)) (r :: Ev)).
    { intros i [->|J]; [apply (O p i eq_refl), E|]. apply (proj2 (proj2 I)) in J. contradiction. }
    assert (Fin : forall cs, (forall i c, In (i, c) cs -> refers h root (Some (p, i)) c) -> NoDup (map fst cs) ->
      scans (scan fuel h) ((Some (Ptr p), F) :: al) (map snd cs) = Done al' -> exists Ev', follows al Ev r al' Ev').
    { intros cs Rc ND K. destruct (children_tracked (scan fuel h) p IH) with (cs := cs) (al := (Some (Ptr p), F) :: al) (Ev := r :: Ev) (al' := al') as (Ev' & J & X); auto.
      - intros a w a' Ua Ha. eapply scan_spec; eassumption.
      - exists Ev'. split; [exact J|]. intros x Y. destruct (X x Y) as [[<-|Z]|(q & k & -> & Z)]; auto. right. right. exists q, k.
        split; [reflexivity|]. destruct Z as [->|Z]; [exact E|]. rewrite assq_cons in Z. destruct (veq (Ptr q) (Ptr p)); [discriminate|exact Z]. }
    destruct (nth_error h p) as [[a d|vs|k| |k]|] eqn:En.
    + apply (Fin [(1, d); (0, a)]).
      * intros i c [[= <- <-]|[[= <- <-]|[]]]; (split; [exact Rv|]); exists (Cons a d); auto.
      * repeat constructor; cbn; intuition discriminate.
      * cbn [map snd scans]. apply bind_done in H. destruct H as (b & H1 & H2). rewrite H1. cbn [rbind]. rewrite H2. reflexivity.
    + apply (Fin (combine (seq 0 (length vs)) vs)).
      * intros i c J. apply index_in in J. destruct J as (j & -> & Ej). split; [exact Rv|]. exists (Vector vs). auto.
      * rewrite combine_fst. apply seq_NoDup.
      * rewrite combine_snd. exact H.
    + injection H as <-. exists (r :: Ev). split; [exact I0|]. intros x [->|J]; auto.
    + injection H as <-. exists (r :: Ev). split; [exact I0|]. intros x [->|J]; auto.
    + injection H as <-. exists (r :: Ev). split; [exact I0|]. intros x [->|J]; auto.
    + injection H as <-. exists (r :: Ev). split; [exact I0|]. intros x [->|J]; auto.
Qed.
End Events.
Lemma scan_shared : forall fuel h v al, scan fuel h [] v = Done al -> forall w, assq w al = Some T -> shared h v w.
Proof.
  intros fuel h v al H. destruct (scan_tracked h v fuel [] [] v None al) as (Ev & (_ & I & _) & _).
  - intros w n. discriminate.
  - split; [|split]; intros; try contradiction; discriminate.
  - reflexivity.
  - auto.
  - discriminate.
  - constructor.
  - exact H.
  - exact I.
Qed.
Lemma inv_numbered : forall base m al, inv base m al -> scope_al base = [] -> forall n p, In (n, p) (scope_al al) -> assq (Ptr p) base = Some T.
Proof.
  assert (X : forall base m al, inv base m al -> forall w, assq w al = Some T -> assq w base = Some T).
  { induction 1 as [|m al q I IH A]; intros w W; [exact W|]. rewrite assq_cons in W. destruct (veq w (Ptr q)); [discriminate|]. apply IH, W. }
  induction 1 as [|m al q I IH A]; intros P n p J; cbn in J; [rewrite P in J; destruct J|].
  destruct J as [[= <- <-]|J]; [eapply X; eassumption|eapply IH; eassumption].
Qed.
Theorem write_shared_ok : forall h v, sound h -> valid h v ->
  exists ts f, (forall fuel, f <= fuel -> write_shared fuel h v = Done ts) /\
  exists E, shows h [] ts v E /\ forall n p, In (n, p) E -> shared h v (Ptr p).
Proof.
  intros h v S V. assert (U0 : unnumbered []) by (intros w n; discriminate).
  destruct (scan_ends (Datatypes.S (unseen h [])) h [] v U0 ltac:(lia)) as (base & Hs & _).
  destruct (scan_spec _ _ _ _ _ U0 Hs) as ((U & G & E) & M).
  pose proof (scan_scope _ _ _ _ _ Hs eq_refl) as P.
  assert (Ed : forall o c, assq o base <> None -> child h o c -> edge h base o c) by (intros; apply E; auto).
  destruct (all_ok h base S U Ed P (pending h ((None, N 0) :: base)) v) as (O & _).
  { split; [exact V|]. intros I. apply (M I). }
  destruct (O 0 _ (Inv_0 base) (le_n _)) as (ts & m & al & (f & D) & Iv & _ & Sh).
  exists ts, (Datatypes.S (unseen h []) + f). split.
  - intros fuel L. unfold write_shared. rewrite (scan_more _ _ _ _ _ Hs fuel ltac:(lia)). cbn [rbind].
    rewrite (D fuel ltac:(lia)). reflexivity.
  - exists (scope_al al). cbn [scope_al] in Sh. rewrite P in Sh. split; [exact Sh|]. intros n p J.
    eapply scan_shared; [exact Hs|]. eapply inv_numbered; eassumption.
Qed.

