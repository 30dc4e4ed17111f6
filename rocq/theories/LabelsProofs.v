(** Proofs about write and datum labels (Labels.v). *)
From Coq Require Import ZArith List Bool Arith Lia.
From Verif Require Import Lists ListPredicates Labels LabelsSpec.
Import ListNotations.

(** ** Lists *)
Lemma flat_nth : forall h p, nth_error (flat h) p = option_map (fun o => match o with Cons a d => Obj true a d | _ => Obj false Nil Nil end) (nth_error h p).
Proof. intros h p. unfold flat. apply nth_error_map. Qed.
Lemma flat_length : forall h, length (flat h) = length h.
Proof. intros h. apply map_length. Qed.
Lemma chain_cdrs : forall h n v w, chain (flat h) n v = Some w <-> cdrs h v n w.
Proof.
  intros h n v. induction n as [|n IH]; intros w.
  - split; [intros [= <-]; constructor | intros H; inversion H; reflexivity].
  - split; intros H.
    + replace (S n) with (n + 1) in H by lia. destruct (chain_prefix _ _ _ _ _ H) as [y Ey].
      rewrite (chain_add _ _ _ _ _ Ey) in H. cbn in H. destruct y as [|b|p]; try discriminate.
      rewrite flat_nth in H. destruct (nth_error h p) as [[a d|vs|k| |k]|] eqn:E; cbn in H; try discriminate.
      injection H as <-. apply (Cdrs_S h v n p a d); [apply IH; exact Ey | exact E].
    + inversion H as [|n' p a d C E]; subst. apply IH in C. replace (S n) with (n + 1) by lia.
      rewrite (chain_add _ _ _ _ _ C). cbn. rewrite flat_nth, E. reflexivity.
Qed.
Lemma endless_circular : forall h v, endless h v <-> circular (flat h) v.
Proof.
  intros h v. split; intros H n; specialize (H n).
  - destruct H as (p & a & d & C & E). exists (Ptr p). split; [apply chain_cdrs; exact C|].
    exists p, (Obj true a d). rewrite flat_nth, E. auto.
  - destruct H as (w & C & p & o & -> & E & P). apply chain_cdrs in C. rewrite flat_nth in E.
    destruct (nth_error h p) as [[a d|vs|k| |k]|] eqn:En; cbn in E; try discriminate; injection E as <-; try discriminate P.
    exists p, a, d. auto.
Qed.
Lemma circular_test : forall h d, exists b, is_circular_list (S (length h)) (flat h) d d = Done b /\ (b = true <-> endless h d).
Proof.
  intros h d. destruct (predicates_decide (flat h) d) as (s & S & U & R).
  destruct (R (Datatypes.S (length h))) as (_ & _ & C); [rewrite flat_length; lia|].
  unfold circular_p in C. eexists. split; [exact C|]. rewrite endless_circular. destruct s.
  - split; [discriminate|]. intros X. discriminate (U Circular X).
  - split; [discriminate|]. intros X. discriminate (U Circular X).
  - split; auto.
Qed.
Lemma endless_dec : forall h v, endless h v \/ ~ endless h v.
Proof.
  intros h v. destruct (circular_test h v) as ([|] & _ & I).
  - left. apply I. reflexivity.
  - right. intros E. apply I in E. discriminate.
Qed.
Lemma cdrs_cons : forall h p a d n w, nth_error h p = Some (Cons a d) -> (cdrs h (Ptr p) (S n) w <-> cdrs h d n w).
Proof.
  intros h p a d n w E. rewrite <- !chain_cdrs. cbn. rewrite flat_nth, E. reflexivity.
Qed.
Lemma endless_cons : forall h p a d, nth_error h p = Some (Cons a d) -> (endless h (Ptr p) <-> endless h d).
Proof.
  intros h p a d E. split; intros H n.
  - destruct (H (S n)) as (q & a' & d' & C & Eq). exists q, a', d'. split; [|exact Eq].
    apply (cdrs_cons h p a d); assumption.
  - destruct n as [|n].
    + exists p, a, d. split; [constructor | exact E].
    + destruct (H n) as (q & a' & d' & C & Eq). exists q, a', d'. split; [|exact Eq].
      apply (cdrs_cons h p a d); assumption.
Qed.
Lemma endless_pair : forall h v, endless h v -> exists p a d, v = Ptr p /\ nth_error h p = Some (Cons a d).
Proof.
  intros h v H. destruct (H 0) as (p & a & d & C & E). exists p, a, d. inversion C; subst. auto.
Qed.

(** ** One step of write *)
Definition lt (t : option table) : table := match t with Some l => l | None => [] end.
Lemma write_pair : forall fuel h t p a d, nth_error h p = Some (Cons a d) -> ~ endless h d ->
  write (S fuel) Whole h t (Ptr p) =
  ('(ts, t1) <- write fuel Whole h (Some (lt t)) a; '(us, t2) <- write fuel Rest h t1 d; Done (TOpen :: ts ++ us, leave t t2)).
Proof.
  intros fuel h t p a d E N. cbn [write]. rewrite E. destruct (circular_test h d) as ([|] & C & I).
  - exfalso. apply N, I. reflexivity.
  - rewrite C. reflexivity.
Qed.
Lemma write_ring : forall fuel h t p a d, nth_error h p = Some (Cons a d) -> endless h d -> label_of (lt t) p = None ->
  write (S fuel) Whole h t (Ptr p) =
  ('(ts, t1) <- write fuel (Ring p) h (Some ((p, S (length (lt t))) :: lt t)) (Ptr p);
   Done (TDecl (S (length (lt t))) :: TOpen :: ts ++ [TDot; TUse (S (length (lt t))); TClose], leave t t1)).
Proof.
  intros fuel h t p a d E N L. cbn [write]. rewrite E. destruct (circular_test h d) as ([|] & C & I).
  - rewrite C. cbn [rbind]. fold (lt t). rewrite L. reflexivity.
  - apply I in N. discriminate.
Qed.
Lemma write_used : forall fuel h t p a d n, nth_error h p = Some (Cons a d) -> endless h d -> label_of (lt t) p = Some n ->
  write (S fuel) Whole h t (Ptr p) = Done ([TUse n], t).
Proof.
  intros fuel h t p a d n E N L. cbn [write]. rewrite E. destruct (circular_test h d) as ([|] & C & I).
  - rewrite C. cbn [rbind]. fold (lt t). rewrite L. reflexivity.
  - apply I in N. discriminate.
Qed.
Lemma bind_done : forall A B (m : res A) (f : A -> res B) b, rbind m f = Done b -> exists a, m = Done a /\ f a = Done b.
Proof. intros A B [a| |] f b H; try discriminate. exists a. auto. Qed.

(** ** The runs of write that end *)
Definition no_pair (h : store) (v : val) : Prop := forall p a d, v = Ptr p -> nth_error h p <> Some (Cons a d).
Inductive leaf (h : store) : val -> Prop :=
| Leaf_imm : forall b, leaf h (Imm b)
| Leaf_text : forall p n, nth_error h p = Some (Text n) -> leaf h (Ptr p)
| Leaf_other : forall p, nth_error h p = Some Other -> leaf h (Ptr p)
| Leaf_label : forall p n, nth_error h p = Some (Label n) -> leaf h (Ptr p).
Inductive run (h : store) : mode -> option table -> val -> list token -> option table -> Prop :=
| R_nil : forall t, run h Whole t Nil [TOpen; TClose] t
| R_leaf : forall t v, leaf h v -> run h Whole t v [TAtom v] t
| R_used : forall t p a d n, nth_error h p = Some (Cons a d) -> endless h d -> label_of (lt t) p = Some n ->
    run h Whole t (Ptr p) [TUse n] t
| R_ring : forall t p a d ts t1, nth_error h p = Some (Cons a d) -> endless h d -> label_of (lt t) p = None ->
    run h (Ring p) (Some ((p, S (length (lt t))) :: lt t)) (Ptr p) ts t1 ->
    run h Whole t (Ptr p) (TDecl (S (length (lt t))) :: TOpen :: ts ++ [TDot; TUse (S (length (lt t))); TClose]) (leave t t1)
| R_pair : forall t p a d ts t1 us t2, nth_error h p = Some (Cons a d) -> ~ endless h d ->
    run h Whole (Some (lt t)) a ts t1 -> run h Rest t1 d us t2 -> run h Whole t (Ptr p) (TOpen :: ts ++ us) (leave t t2)
| R_vec : forall t p vs ts t1, nth_error h p = Some (Vector vs) -> runs h t vs ts t1 ->
    run h Whole t (Ptr p) (TVec :: ts ++ [TClose]) t1
| R_last : forall p t q a ts t1, nth_error h q = Some (Cons a (Ptr p)) -> run h Whole t a ts t1 -> run h (Ring p) t (Ptr q) ts t1
| R_next : forall p t q a r ts t1 us t2, nth_error h q = Some (Cons a (Ptr r)) -> r <> p ->
    run h Whole t a ts t1 -> run h (Ring p) t1 (Ptr r) us t2 -> run h (Ring p) t (Ptr q) (ts ++ us) t2
| R_stop : forall p t q a d ts t1, nth_error h q = Some (Cons a d) -> (forall r, d <> Ptr r) ->
    run h Whole t a ts t1 -> run h (Ring p) t (Ptr q) ts t1
| R_close : forall t, run h Rest t Nil [TClose] t
| R_more : forall t q a d ts t1 us t2, nth_error h q = Some (Cons a d) ->
    run h Whole t a ts t1 -> run h Rest t1 d us t2 -> run h Rest t (Ptr q) (ts ++ us) t2
| R_dot : forall t v ts t1, v <> Nil -> no_pair h v -> run h Whole t v ts t1 -> run h Rest t v (TDot :: ts ++ [TClose]) t1
with runs (h : store) : option table -> list val -> list token -> option table -> Prop :=
| Rs_nil : forall t, runs h t [] [] t
| Rs_cons : forall t v ts t1 vs us t2, run h Whole t v ts t1 -> runs h t1 vs us t2 -> runs h t (v :: vs) (ts ++ us) t2.
Scheme run_mut := Induction for run Sort Prop with runs_mut := Induction for runs Sort Prop.
Combined Scheme run_runs from run_mut, runs_mut.

Lemma each_runs : forall f h, (forall t v ts t1, f t v = Done (ts, t1) -> run h Whole t v ts t1) ->
  forall vs t ts t1, each f t vs = Done (ts, t1) -> runs h t vs ts t1.
Proof.
  intros f h F. induction vs as [|v vs IH]; cbn [each]; intros t ts t1 H.
  - injection H as <- <-. constructor.
  - apply bind_done in H. destruct H as ((ts1 & t2) & H1 & H). apply bind_done in H. destruct H as ((ts2 & t3) & H2 & H).
    injection H as <- <-. econstructor; [apply F; exact H1 | apply IH; exact H2].
Qed.
Lemma write_run : forall fuel h m t v ts t1, write fuel m h t v = Done (ts, t1) -> run h m t v ts t1.
Proof.
  induction fuel as [|fuel IH]; intros h m t v ts t1 H; [discriminate|].
  destruct m as [|p|].
  - destruct v as [|b|p].
    + injection H as <- <-. constructor.
    + injection H as <- <-. constructor. constructor.
    + destruct (nth_error h p) as [[a d|vs|k| |k]|] eqn:E.
      * destruct (endless_dec h d) as [Y|Y].
        -- destruct (label_of (lt t) p) as [n|] eqn:L.
           ++ rewrite (write_used fuel h t p a d n E Y L) in H. injection H as <- <-. eapply R_used; eassumption.
           ++ rewrite (write_ring fuel h t p a d E Y L) in H. apply bind_done in H. destruct H as ((ts1 & t2) & H1 & H).
              injection H as <- <-. eapply R_ring; eauto.
        -- rewrite (write_pair fuel h t p a d E Y) in H. apply bind_done in H. destruct H as ((ts1 & t2) & H1 & H).
           apply bind_done in H. destruct H as ((ts2 & t3) & H2 & H). injection H as <- <-. eapply R_pair; eauto.
      * cbn [write] in H. rewrite E in H. apply bind_done in H. destruct H as ((ts1 & t2) & H1 & H). injection H as <- <-.
        eapply R_vec; [exact E|]. eapply each_runs; [|exact H1]. intros. eapply IH. eassumption.
      * cbn [write] in H. rewrite E in H. injection H as <- <-. constructor. eapply Leaf_text; eassumption.
      * cbn [write] in H. rewrite E in H. injection H as <- <-. constructor. eapply Leaf_other; eassumption.
      * cbn [write] in H. rewrite E in H. injection H as <- <-. constructor. eapply Leaf_label; eassumption.
      * cbn [write] in H. rewrite E in H. discriminate.
  - cbn [write] in H. destruct v as [|b|q]; try discriminate.
    destruct (nth_error h q) as [[a d|vs|k| |k]|] eqn:E; try discriminate.
    apply bind_done in H. destruct H as ((ts1 & t2) & H1 & H). apply IH in H1. destruct d as [|b|r].
    + injection H as <- <-. eapply R_stop; [exact E | discriminate | exact H1].
    + injection H as <- <-. eapply R_stop; [exact E | discriminate | exact H1].
    + destruct (Nat.eqb_spec r p) as [->|N].
      * injection H as <- <-. eapply R_last; eassumption.
      * apply bind_done in H. destruct H as ((ts2 & t3) & H2 & H). injection H as <- <-. eapply R_next; eauto.
  - cbn [write] in H. destruct v as [|b|q].
    + injection H as <- <-. constructor.
    + apply bind_done in H. destruct H as ((ts1 & t2) & H1 & H). injection H as <- <-.
      apply R_dot; [discriminate | intros p a d [=] | apply IH; exact H1].
    + destruct (nth_error h q) as [[a d|vs|k| |k]|] eqn:E.
      * apply bind_done in H. destruct H as ((ts1 & t2) & H1 & H). apply bind_done in H. destruct H as ((ts2 & t3) & H2 & H).
        injection H as <- <-. eapply R_more; eauto.
      * apply bind_done in H. destruct H as ((ts1 & t2) & H1 & H). injection H as <- <-.
        apply R_dot; [discriminate | intros p a d [= <-]; congruence | apply IH; exact H1].
      * apply bind_done in H. destruct H as ((ts1 & t2) & H1 & H). injection H as <- <-.
        apply R_dot; [discriminate | intros p a d [= <-]; congruence | apply IH; exact H1].
      * apply bind_done in H. destruct H as ((ts1 & t2) & H1 & H). injection H as <- <-.
        apply R_dot; [discriminate | intros p a d [= <-]; congruence | apply IH; exact H1].
      * apply bind_done in H. destruct H as ((ts1 & t2) & H1 & H). injection H as <- <-.
        apply R_dot; [discriminate | intros p a d [= <-]; congruence | apply IH; exact H1].
      * apply bind_done in H. destruct H as ((ts1 & t2) & H1 & H). injection H as <- <-.
        apply R_dot; [discriminate | intros p a d [= <-]; congruence | apply IH; exact H1].
Qed.

(** Conversely, a run is found with any fuel that is large enough *)
Lemma run_write : forall h,
  (forall m t v ts t1, run h m t v ts t1 -> exists f, forall fuel, f <= fuel -> write fuel m h t v = Done (ts, t1)) /\
  (forall t vs ts t1, runs h t vs ts t1 -> exists f, forall fuel, f <= fuel -> each (write fuel Whole h) t vs = Done (ts, t1)).
Proof.
  intros h. apply run_runs.
  - intros t. exists 1. intros [|fuel] L; [lia|]. reflexivity.
  - intros t v H. exists 1. intros [|fuel] L; [lia|]. cbn [write]. destruct H as [b|p n E|p E|p n E]; [reflexivity| | |]; rewrite E; reflexivity.
  - intros t p a d n E Y L. exists 1. intros [|fuel] LF; [lia|]. eapply write_used; eassumption.
  - intros t p a d ts t1 E Y L R (f & IH). exists (S f). intros [|fuel] LF; [lia|]. rewrite (write_ring fuel h t p a d E Y L), IH by lia.
    reflexivity.
  - intros t p a d ts t1 us t2 E Y R1 (f1 & IH1) R2 (f2 & IH2). exists (S (f1 + f2)). intros [|fuel] LF; [lia|].
    rewrite (write_pair fuel h t p a d E Y), IH1 by lia. cbn [rbind]. rewrite IH2 by lia. reflexivity.
  - intros t p vs ts t1 E R (f & IH). exists (S f). intros [|fuel] LF; [lia|]. cbn [write]. rewrite E, IH by lia. reflexivity.
  - intros p t q a ts t1 E R (f & IH). exists (S f). intros [|fuel] LF; [lia|]. cbn [write]. rewrite E, IH by lia. cbn [rbind].
    rewrite Nat.eqb_refl. reflexivity.
  - intros p t q a r ts t1 us t2 E N R1 (f1 & IH1) R2 (f2 & IH2). exists (S (f1 + f2)). intros [|fuel] LF; [lia|].
    cbn [write]. rewrite E, IH1 by lia. cbn [rbind]. rewrite (proj2 (Nat.eqb_neq r p) N), IH2 by lia. reflexivity.
  - intros p t q a d ts t1 E N R (f & IH). exists (S f). intros [|fuel] LF; [lia|]. cbn [write]. rewrite E, IH by lia. cbn [rbind].
    destruct d as [|b|r]; [reflexivity|reflexivity|]. destruct (N r eq_refl).
  - intros t. exists 1. intros [|fuel] L; [lia|]. reflexivity.
  - intros t q a d ts t1 us t2 E R1 (f1 & IH1) R2 (f2 & IH2). exists (S (f1 + f2)). intros [|fuel] LF; [lia|].
    cbn [write]. rewrite E, IH1 by lia. cbn [rbind]. rewrite IH2 by lia. reflexivity.
  - intros t v ts t1 N P R (f & IH). exists (S f). intros [|fuel] LF; [lia|]. cbn [write]. destruct v as [|b|q]; [congruence| |].
    + rewrite IH by lia. reflexivity.
    + destruct (nth_error h q) as [[a d|vs|k| |k]|] eqn:E; try (rewrite IH by lia; reflexivity).
      destruct (P q a d eq_refl E).
  - intros t. exists 0. reflexivity.
  - intros t v ts t1 vs us t2 R1 (f1 & IH1) R2 (f2 & IH2). exists (f1 + f2). intros fuel LF. cbn [each]. rewrite IH1 by lia.
    cbn [rbind]. rewrite IH2 by lia. reflexivity.
Qed.

(** ** The text *)
Inductive good : table -> Prop :=
| Good_nil : good []
| Good_cons : forall l p, good l -> label_of l p = None -> good ((p, S (length l)) :: l).
Definition scope_of (l : table) : scope := map (fun e => (snd e, fst e)) l.
Definition extends (l l' : table) : Prop := forall p n, label_of l p = Some n -> label_of l' p = Some n.
Lemma good_bound : forall l, good l -> forall n q, In (n, q) (scope_of l) -> 1 <= n <= length l.
Proof.
  induction 1 as [|l p G IH L]; intros n q I; [destruct I|]. cbn in I. destruct I as [[= <- <-]|I]; cbn [length]; [lia|].
  specialize (IH _ _ I). lia.
Qed.
Lemma good_stands : forall l, good l -> forall p n, label_of l p = Some n -> stands n p (scope_of l).
Proof.
  induction 1 as [|l q G IH L]; intros p n H; cbn in H |- *; [discriminate|].
  destruct (Nat.eqb_spec q p) as [->|N].
  - injection H as <-. constructor.
  - specialize (IH _ _ H). constructor; [|exact IH]. intros <-.
    assert (I : forall E n p, stands n p E -> In (n, p) E).
    { induction 1; [left; reflexivity | right; assumption]. }
    pose proof (good_bound l G _ _ (I _ _ _ IH)). lia.
Qed.
Lemma run_shows : forall h, (forall p n, nth_error h p <> Some (Label n)) ->
  (forall m t v ts t1, run h m t v ts t1 -> forall l, t = Some l -> good l ->
     match m with
     | Whole => exists l1, t1 = Some l1 /\ good l1 /\ extends l l1 /\ shows h (scope_of l) ts v (scope_of l1)
     | Rest => exists l1, t1 = Some l1 /\ good l1 /\ extends l l1 /\ shows_rest h (scope_of l) ts v (scope_of l1)
     | Ring p => forall n, label_of l p = Some n -> endless h v ->
         exists q a d l1 l2 ts0 us, v = Ptr q /\ nth_error h q = Some (Cons a d) /\ t1 = Some l2 /\
           good l2 /\ extends l l2 /\ ts ++ [TDot; TUse n; TClose] = ts0 ++ us /\
           shows h (scope_of l) ts0 a (scope_of l1) /\ shows_rest h (scope_of l1) us d (scope_of l2)
     end) /\
  (forall t vs ts t1, runs h t vs ts t1 -> forall l, t = Some l -> good l ->
     exists l1, t1 = Some l1 /\ good l1 /\ extends l l1 /\ shows_all h (scope_of l) ts vs (scope_of l1)).
Proof.
  intros h NL. apply run_runs.
  - intros t l -> G. exists l. repeat split; auto; try (intros p n; auto; fail). constructor.
  - intros t v LF l -> G. exists l. repeat split; auto; try (intros p n; auto; fail). constructor.
    destruct LF as [b|p n E|p E|p n E]; [constructor|eapply Atomic_text; eassumption|eapply Atomic_other; eassumption|].
    destruct (NL p n E).
  - intros t p a d n E Y L l -> G. exists l. repeat split; auto; try (intros q k; auto; fail). constructor.
    apply good_stands; assumption.
  - intros t p a d ts t1 E Y L R IH l -> G. cbn [lt] in *.
    destruct (IH _ eq_refl (Good_cons l p G L) (S (length l))) as (q & a' & d' & l1 & l2 & ts0 & us & Q & Eq & -> & G2 & X2 & T & S1 & S2).
    { cbn. rewrite Nat.eqb_refl. reflexivity. }
    { apply (endless_cons h p a d E). exact Y. }
    injection Q as <-. rewrite E in Eq. injection Eq as <- <-.
    exists l2. repeat split; auto.
    { intros r k K. apply X2. cbn. destruct (Nat.eqb_spec p r) as [->|N]; [congruence|exact K]. }
    rewrite T. apply Shows_decl.
    + intros q I. apply (good_bound l G) in I. lia.
    + discriminate.
    + eapply Shows_pair; [exact E| |exact S2]. exact S1.
  - intros t p a d ts t1 us t2 E Y R1 IH1 R2 IH2 l -> G. cbn [lt leave] in *.
    destruct (IH1 _ eq_refl G) as (l1 & -> & G1 & X1 & S1). destruct (IH2 _ eq_refl G1) as (l2 & -> & G2 & X2 & S2).
    exists l2. repeat split; auto. { intros q k K. auto. } eapply Shows_pair; eassumption.
  - intros t p vs ts t1 E R IH l -> G. destruct (IH _ eq_refl G) as (l1 & -> & G1 & X1 & S1). exists l1. repeat split; auto.
    eapply Shows_vector; eassumption.
  - intros p t q a ts t1 E R IH l -> G n L Y. destruct (IH _ eq_refl G) as (l1 & -> & G1 & X1 & S1).
    exists q, a, (Ptr p), l1, l1, ts, [TDot; TUse n; TClose]. repeat split; auto.
    apply (Rest_dot h (scope_of l1) [TUse n]). constructor. apply good_stands; auto.
  - intros p t q a r ts t1 us t2 E N R1 IH1 R2 IH2 l -> G n L Y. destruct (IH1 _ eq_refl G) as (l1 & -> & G1 & X1 & S1).
    apply (endless_cons h q a (Ptr r) E) in Y.
    destruct (IH2 _ eq_refl G1 n (X1 _ _ L) Y) as (r' & a' & d' & l2 & l3 & ts0 & vs & Q & Er & -> & G3 & X3 & T & S2 & S3).
    injection Q as <-. exists q, a, (Ptr r), l1, l3, ts, (us ++ [TDot; TUse n; TClose]). repeat split; auto.
    + intros x k K. auto.
    + rewrite <- app_assoc. reflexivity.
    + rewrite T. eapply Rest_pair; eassumption.
  - intros p t q a d ts t1 E N R IH l -> G n L Y. apply (endless_cons h q a d E) in Y. destruct (endless_pair h d Y) as (r & ? & ? & -> & _).
    destruct (N r eq_refl).
  - intros t l -> G. exists l. repeat split; auto; try (intros q k; auto; fail). constructor.
  - intros t q a d ts t1 us t2 E R1 IH1 R2 IH2 l -> G.
    destruct (IH1 _ eq_refl G) as (l1 & -> & G1 & X1 & S1). destruct (IH2 _ eq_refl G1) as (l2 & -> & G2 & X2 & S2).
    exists l2. repeat split; auto. { intros x k K. auto. } eapply Rest_pair; eassumption.
  - intros t v ts t1 N P R IH l -> G. destruct (IH _ eq_refl G) as (l1 & -> & G1 & X1 & S1). exists l1. repeat split; auto.
    apply Rest_dot. exact S1.
  - intros t l -> G. exists l. repeat split; auto; try (intros q k; auto; fail). constructor.
  - intros t v ts t1 vs us t2 R1 IH1 R2 IH2 l -> G.
    destruct (IH1 _ eq_refl G) as (l1 & -> & G1 & X1 & S1). destruct (IH2 _ eq_refl G1) as (l2 & -> & G2 & X2 & S2).
    exists l2. repeat split; auto. { intros x k K. auto. } econstructor; eassumption.
Qed.
(** The outermost pair: the table is new and is given up at its end *)
Lemma run_start : forall h v ts t1, run h Whole None v ts t1 -> (forall p vs, v = Ptr p -> nth_error h p <> Some (Vector vs)) ->
  t1 = None /\ exists t2, run h Whole (Some []) v ts t2.
Proof.
  intros h v ts t1 R NV. inversion R; subst.
  - split; [reflexivity|]. eexists. constructor.
  - split; [reflexivity|]. eexists. constructor. assumption.
  - discriminate.
  - split; [reflexivity|]. eexists. eapply (R_ring h (Some [])); eassumption.
  - split; [reflexivity|]. eexists. eapply (R_pair h (Some [])); eassumption.
  - exfalso. eapply NV; [reflexivity | eassumption].
Qed.
Theorem write_text : forall h fuel v ts, (forall p n, nth_error h p <> Some (Label n)) ->
  (forall p vs, v = Ptr p -> nth_error h p <> Some (Vector vs)) ->
  write_datum fuel h v = Done ts -> depicts h ts v.
Proof.
  intros h fuel v ts NL NV H. unfold write_datum in H. apply bind_done in H. destruct H as ((us & t1) & H & J). injection J as <-.
  apply write_run in H. apply run_start in H; [|exact NV]. destruct H as (_ & t2 & H).
  destruct (run_shows h NL) as (S & _). destruct (S _ _ _ _ _ H [] eq_refl Good_nil) as (l1 & _ & _ & _ & K).
  exists (scope_of l1). exact K.
Qed.

(** ** Which data write can deal with *)
Definition lab (t : option table) (v : val) : Prop := exists p n, v = Ptr p /\ label_of (lt t) p = Some n.
Lemma lab_some : forall t v, lab (Some (lt t)) v <-> lab t v.
Proof. intros t v. reflexivity. Qed.
Lemma lab_leave : forall t t1 v, (lab t v -> lab t1 v) -> lab t v -> lab (leave t t1) v.
Proof. intros [l|] t1 v H; cbn; [exact H|]. intros X. exact X. Qed.
Lemma lab_unleave : forall t t1 v, lab (leave t t1) v -> lab t1 v \/ lab t v.
Proof. intros [l|] t1 v H; cbn in H; auto. Qed.
Lemma lab_new : forall p n l v, lab (Some ((p, n) :: l)) v <-> v = Ptr p \/ lab (Some l) v.
Proof.
  intros p n l v. split.
  - intros (q & k & -> & H). cbn in H. destruct (Nat.eqb_spec p q) as [->|N]; [left; reflexivity|].
    right. exists q, k. auto.
  - intros [->|(q & k & -> & H)].
    + exists p, n. cbn. rewrite Nat.eqb_refl. auto.
    + destruct (Nat.eqb_spec p q) as [->|N]; [exists q, n|exists q, k]; cbn in *.
      * rewrite Nat.eqb_refl. auto.
      * apply Nat.eqb_neq in N. rewrite N. auto.
Qed.
Lemma run_grows : forall h,
  (forall m t v ts t1, run h m t v ts t1 -> forall y, lab t y -> lab t1 y) /\
  (forall t vs ts t1, runs h t vs ts t1 -> forall y, lab t y -> lab t1 y).
Proof.
  intros h. apply run_runs; intros; auto.
  - apply lab_leave; [|assumption]. intros Y. apply H. apply lab_new. right. exact Y.
  - apply lab_leave; [|assumption]. intros Y. apply H0, H. exact Y.
Qed.

Lemma child_pair : forall h p a d y, nth_error h p = Some (Cons a d) -> child h (Ptr p) y -> y = a \/ y = d.
Proof. intros h p a d y E C. inversion C; subst; rewrite E in *; try discriminate; match goal with H : Some _ = Some _ |- _ => injection H as <- <- end; auto. Qed.
Lemma child_vec : forall h p vs y, nth_error h p = Some (Vector vs) -> child h (Ptr p) y -> In y vs.
Proof. intros h p vs y E C. inversion C; subst; rewrite E in *; try discriminate. match goal with H : Some _ = Some _ |- _ => injection H as <- end. assumption. Qed.
Lemma leaf_child : forall h v y, leaf h v -> child h v y -> False.
Proof. intros h v y L C. inversion C; subst; inversion L; subst; congruence. Qed.
Lemma leaf_not_endless : forall h v, leaf h v -> ~ endless h v.
Proof. intros h v L E. apply endless_pair in E. destruct E as (p & a & d & -> & E). inversion L; congruence. Qed.
Lemma endless_acc : forall h v, endless h v -> Acc (inner h) v.
Proof. intros h v E. constructor. intros y (_ & N). destruct (N E). Qed.
Lemma cdrs_trans : forall h m n x y z, cdrs h x m y -> cdrs h y n z -> cdrs h x (m + n) z.
Proof. intros h m n x y z A B. apply chain_cdrs. apply chain_cdrs in A, B. rewrite (chain_add _ _ _ _ _ A). exact B. Qed.

Definition closed (h : store) (t : option table) (V : val -> Prop) : Prop := forall x y, V x -> child h x y -> V y \/ lab t y.
Ltac parts x H := repeat match goal with
  | |- _ /\ _ => split
  | |- forall z, _ -> fine _ z => intros x H; split
  end.
Lemma run_fine : forall h,
  (forall m t v ts t1, run h m t v ts t1 -> (forall y, lab t y -> endless h y) ->
     (forall y, lab t1 y -> endless h y) /\
     match m with
     | Whole => exists V, (V v \/ lab t v) /\ Acc (inner h) v /\ (forall x, V x -> fine h x) /\ closed h t V /\
         (forall y, lab t1 y -> lab t y \/ V y)
     | Rest => ~ endless h v -> exists V : val -> Prop, V v /\ Acc (inner h) v /\ (forall x, V x -> fine h x) /\ closed h t V /\
         (forall y, lab t1 y -> lab t y \/ V y)
     | Ring p => endless h v -> lab t (Ptr p) -> (exists k, 0 < k /\ cdrs h v k (Ptr p)) /\ exists V : val -> Prop, V v /\
         (forall x, V x -> fine h x \/ (endless h x /\ exists j k, 0 < k /\ cdrs h v j x /\ cdrs h x k (Ptr p))) /\ closed h t V /\
         (forall y, lab t1 y -> lab t y \/ V y)
     end) /\
  (forall t vs ts t1, runs h t vs ts t1 -> (forall y, lab t y -> endless h y) ->
     (forall y, lab t1 y -> endless h y) /\
     exists V : val -> Prop, (forall v, In v vs -> (V v \/ lab t v) /\ Acc (inner h) v) /\ (forall x, V x -> fine h x) /\ closed h t V /\
         (forall y, lab t1 y -> lab t y \/ V y)).
Proof.
  intros h. apply run_runs.
  - intros t LE. split; [exact LE|]. exists (fun x => x = Nil).
    assert (A : Acc (inner h) Nil) by (constructor; intros y (C & _); inversion C).
    parts x H; auto.
    + intros E. subst x. apply endless_pair in E. destruct E as (? & ? & ? & [=] & _).
    + subst x. exact A.
    + intros x y -> C. inversion C.
  - intros t v L LE. split; [exact LE|].
    assert (A : Acc (inner h) v) by (constructor; intros y (C & _); destruct (leaf_child h v y L C)).
    exists (fun x => x = v). parts x H; auto.
    + intros E. subst x. destruct (leaf_not_endless h v L E).
    + subst x. exact A.
    + intros x y -> C. destruct (leaf_child h v y L C).
  - intros t p a d n E Y L LE. split; [exact LE|]. exists (fun _ => False).
    assert (B : lab t (Ptr p)) by (exists p, n; auto).
    parts x H; auto; try contradiction.
    + apply endless_acc, LE, B.
    + intros x y [].
  - intros t p a d ts t1 E Y L R IH LE.
    assert (Ep : endless h (Ptr p)) by (apply (endless_cons h p a d E); exact Y).
    destruct IH as (LE1 & IH).
    { intros y I. apply lab_new in I. destruct I as [->|I]; [exact Ep | apply LE, I]. }
    split. { intros y I. apply lab_unleave in I. destruct I; auto. }
    destruct IH as (_ & V & Vp & F & C & G); [exact Ep | apply lab_new; auto |].
    exists V. parts x H.
    + left. exact Vp.
    + apply endless_acc, Ep.
    + intros Ex. destruct (F x H) as [[O _]|(_ & j & k & K & J1 & J2)]; [auto|]. exists (k + j). split; [lia|]. eapply cdrs_trans; eassumption.
    + destruct (F x H) as [[_ O]|(Ex & _)]; [exact O | apply endless_acc, Ex].
    + intros x y Vx Ch. destruct (C x y Vx Ch) as [I|I]; [left; exact I|]. apply lab_new in I. destruct I as [->|I]; auto.
    + intros y I. apply lab_unleave in I. destruct I as [I|I]; [|left; exact I]. apply G in I. destruct I as [I|I]; [|right; exact I].
      apply lab_new in I. destruct I as [->|I]; auto.
  - intros t p a d ts t1 us t2 E Y R1 IH1 R2 IH2 LE.
    destruct (IH1 LE) as (LE1 & V1 & W1 & A1 & F1 & C1 & G1). destruct (IH2 LE1) as (LE2 & IH). clear IH1 IH2.
    destruct (IH Y) as (V2 & W2 & A2 & F2 & C2 & G2).
    split. { intros y I. apply lab_unleave in I. destruct I; auto. }
    assert (NE : ~ endless h (Ptr p)) by (rewrite (endless_cons h p a d E); exact Y).
    assert (A : Acc (inner h) (Ptr p)).
    { constructor. intros y (Ch & _). destruct (child_pair h p a d y E Ch) as [-> | ->]; assumption. }
    exists (fun x => x = Ptr p \/ V1 x \/ V2 x). parts x H; auto.
    + intros Ex. destruct H as [->|[H|H]]; [contradiction|apply (F1 x H), Ex|apply (F2 x H), Ex].
    + destruct H as [->|[H|H]]; [exact A|apply (F1 x H)|apply (F2 x H)].
    + intros x y [->|[H|H]] Ch.
      * destruct (child_pair h p a d y E Ch) as [-> | ->]; [|auto]. destruct W1; auto.
      * destruct (C1 x y H Ch); auto.
      * destruct (C2 x y H Ch) as [I|I]; auto. destruct (G1 y I); auto.
    + intros y I. apply lab_unleave in I. destruct I as [I|I]; auto. destruct (G2 y I) as [J|J]; auto. destruct (G1 y J); auto.
  - intros t p vs ts t1 E R IH LE. destruct (IH LE) as (LE1 & V & W & F & C & G). split; [exact LE1|].
    assert (NE : ~ endless h (Ptr p)).
    { intros X. apply endless_pair in X. destruct X as (? & ? & ? & [= <-] & X). congruence. }
    assert (A : Acc (inner h) (Ptr p)).
    { constructor. intros y (Ch & _). apply (W y). eapply child_vec; eassumption. }
    exists (fun x => x = Ptr p \/ V x). parts x H; auto.
    + intros Ex. destruct H as [->|H]; [contradiction|apply (F x H), Ex].
    + destruct H as [->|H]; [exact A|apply (F x H)].
    + intros x y [->|H] Ch.
      * destruct (W y (child_vec h p vs y E Ch)) as ([I|I] & _); auto.
      * destruct (C x y H Ch); auto.
    + intros y I. destruct (G y I); auto.
  - intros p t q a ts t1 E R IH LE. destruct (IH LE) as (LE1 & V & W & A & F & C & G). split; [exact LE1|].
    intros Y Lp. split. { exists 1. split; [lia|]. eapply Cdrs_S; [constructor|exact E]. }
    exists (fun x => x = Ptr q \/ V x). split; [|split; [|split]].
    + auto.
    + intros x [->|H]; [|left; apply F, H]. right. split; [exact Y|]. exists 0, 1. parts x H; [lia|constructor|].
      eapply Cdrs_S; [constructor|exact E].
    + intros x y [->|H] Ch.
      * destruct (child_pair h q a _ y E Ch) as [-> | ->]; [|auto]. destruct W; auto.
      * destruct (C x y H Ch); auto.
    + intros y I. destruct (G y I); auto.
  - intros p t q a r ts t1 us t2 E N R1 IH1 R2 IH2 LE.
    destruct (IH1 LE) as (LE1 & V1 & W1 & A1 & F1 & C1 & G1). destruct (IH2 LE1) as (LE2 & IH). clear IH1 IH2. split; [exact LE2|].
    intros Y Lp. assert (Yr : endless h (Ptr r)) by (apply (endless_cons h q a (Ptr r) E); exact Y).
    destruct (IH Yr) as ((k0 & K0 & J0) & V2 & W2 & F2 & C2 & G2). { destruct (run_grows h) as (Gr & _). eapply Gr; eassumption. }
    assert (JJ : cdrs h (Ptr q) (S k0) (Ptr p)) by (apply (cdrs_cons h q a (Ptr r) k0 _ E); exact J0).
    split. { exists (S k0). split; [lia|exact JJ]. }
    exists (fun x => x = Ptr q \/ V1 x \/ V2 x). split; [|split; [|split]].
    + auto.
    + intros x [->|[H|H]].
      * right. split; [exact Y|]. exists 0, (S k0). parts x H; [lia|constructor|exact JJ].
      * left. apply F1, H.
      * destruct (F2 x H) as [O|(Ex & j & k & K & J1 & J2)]; [left; exact O|]. right. split; [exact Ex|].
        exists (S j), k. parts x H; auto. apply (cdrs_cons h q a (Ptr r) j _ E). exact J1.
    + intros x y [->|[H|H]] Ch.
      * destruct (child_pair h q a _ y E Ch) as [-> | ->]; [|auto]. destruct W1; auto.
      * destruct (C1 x y H Ch); auto.
      * destruct (C2 x y H Ch) as [I|I]; auto. destruct (G1 y I); auto.
    + intros y I. destruct (G2 y I) as [J|J]; auto. destruct (G1 y J); auto.
  - intros p t q a d ts t1 E N R IH LE. destruct (IH LE) as (LE1 & _). split; [exact LE1|]. intros Y.
    apply (endless_cons h q a d E) in Y. destruct (endless_pair h d Y) as (r & ? & ? & -> & _). destruct (N r eq_refl).
  - intros t LE. split; [exact LE|]. intros _. exists (fun x => x = Nil).
    assert (A : Acc (inner h) Nil) by (constructor; intros y (C & _); inversion C).
    parts x H; auto.
    + intros E. subst x. apply endless_pair in E. destruct E as (? & ? & ? & [=] & _).
    + subst x. exact A.
    + intros x y -> C. inversion C.
  - intros t q a d ts t1 us t2 E R1 IH1 R2 IH2 LE.
    destruct (IH1 LE) as (LE1 & V1 & W1 & A1 & F1 & C1 & G1). destruct (IH2 LE1) as (LE2 & IH). clear IH1 IH2.
    split; [exact LE2|]. intros NE.
    assert (Y : ~ endless h d) by (rewrite <- (endless_cons h q a d E); exact NE).
    destruct (IH Y) as (V2 & W2 & A2 & F2 & C2 & G2).
    assert (A : Acc (inner h) (Ptr q)).
    { constructor. intros y (Ch & _). destruct (child_pair h q a d y E Ch) as [-> | ->]; assumption. }
    exists (fun x => x = Ptr q \/ V1 x \/ V2 x). parts x H; auto.
    + intros Ex. destruct H as [->|[H|H]]; [contradiction|apply (F1 x H), Ex|apply (F2 x H), Ex].
    + destruct H as [->|[H|H]]; [exact A|apply (F1 x H)|apply (F2 x H)].
    + intros x y [->|[H|H]] Ch.
      * destruct (child_pair h q a d y E Ch) as [-> | ->]; [|auto]. destruct W1; auto.
      * destruct (C1 x y H Ch); auto.
      * destruct (C2 x y H Ch) as [I|I]; auto. destruct (G1 y I); auto.
    + intros y I. destruct (G2 y I) as [J|J]; auto. destruct (G1 y J); auto.
  - intros t v ts t1 N P R IH LE. destruct (IH LE) as (LE1 & V & W & A & F & C & G). split; [exact LE1|]. intros NE.
    exists V. parts x H; auto; try (apply F; assumption). destruct W as [W|W]; [exact W|]. destruct (NE (LE v W)).
  - intros t LE. split; [exact LE|]. exists (fun _ => False).
    split; [intros v I; destruct I | split; [intros x [] | split; [intros x y [] | auto]]].
  - intros t v ts t1 vs us t2 R1 IH1 R2 IH2 LE.
    destruct (IH1 LE) as (LE1 & V1 & W1 & A1 & F1 & C1 & G1). destruct (IH2 LE1) as (LE2 & V2 & W2 & F2 & C2 & G2).
    split; [exact LE2|]. exists (fun x => V1 x \/ V2 x). split; [|split; [|split]].
    + intros w [<-|I].
      * destruct W1; auto.
      * destruct (W2 w I) as ([J|J] & A); auto. destruct (G1 w J); auto.
    + intros x [H|H]; auto.
    + intros x y [H|H] Ch.
      * destruct (C1 x y H Ch); auto.
      * destruct (C2 x y H Ch) as [I|I]; auto. destruct (G1 y I); auto.
    + intros y I. destruct (G2 y I) as [J|J]; auto. destruct (G1 y J); auto.
Qed.
Lemma no_lab : forall v, ~ lab None v.
Proof. intros v (p & n & _ & H). discriminate. Qed.
Lemma write_fine : forall h fuel v ts, write_datum fuel h v = Done ts -> forall w, reach h v w -> fine h w.
Proof.
  intros h fuel v ts H. unfold write_datum in H. apply bind_done in H. destruct H as ((us & t1) & H & _). apply write_run in H.
  destruct (run_fine h) as (RF & _). destruct (RF _ _ _ _ _ H) as (_ & V & W & _ & F & C & _).
  { intros y I. destruct (no_lab y I). }
  intros w R. apply F. induction R as [|w x R IH Ch].
  - destruct W as [W|W]; [exact W | destruct (no_lab v W)].
  - destruct (C w x IH Ch) as [I|I]; [exact I | destruct (no_lab x I)].
Qed.

(** Conversely: how many objects have no label yet *)
Definition free_at (t : option table) (p : nat) : bool := match label_of (lt t) p with None => true | Some _ => false end.
Definition unlabelled (h : store) (t : option table) : nat := length (filter (free_at t) (seq 0 (length h))).
Lemma filter_le : forall (f g : nat -> bool) l, (forall x, f x = true -> g x = true) -> length (filter f l) <= length (filter g l).
Proof.
  intros f g l H. induction l as [|x l IH]; cbn; [lia|]. destruct (f x) eqn:E.
  - rewrite (H x E). cbn. lia.
  - destruct (g x); cbn; lia.
Qed.
Lemma filter_lt : forall (f g : nat -> bool) l x, (forall x, f x = true -> g x = true) -> In x l -> f x = false -> g x = true ->
  length (filter f l) < length (filter g l).
Proof.
  intros f g l x H I F G. induction l as [|y l IH]; [destruct I|]. cbn. destruct I as [->|I].
  - rewrite F, G. cbn. pose proof (filter_le f g l H). lia.
  - specialize (IH I). destruct (f y) eqn:E; [rewrite (H y E); cbn; lia|]. destruct (g y); cbn; lia.
Qed.
Lemma unlabelled_le : forall h t t1, (forall y, lab t y -> lab t1 y) -> unlabelled h t1 <= unlabelled h t.
Proof.
  intros h t t1 H. apply filter_le. intros x. unfold free_at. destruct (label_of (lt t) x) as [n|] eqn:E; [|reflexivity].
  destruct (H (Ptr x)) as (q & k & [= <-] & L); [exists x, n; auto|]. rewrite L. auto.
Qed.
Lemma unlabelled_new : forall h t p n, p < length h -> label_of (lt t) p = None ->
  unlabelled h (Some ((p, n) :: lt t)) < unlabelled h t.
Proof.
  intros h t p n L E. apply filter_lt with (x := p).
  - intros x. unfold free_at. cbn. destruct (Nat.eqb_spec p x); [discriminate|auto].
  - apply in_seq. lia.
  - unfold free_at. cbn. rewrite Nat.eqb_refl. reflexivity.
  - unfold free_at. rewrite E. reflexivity.
Qed.
Lemma runs_exists : forall h k vs, (forall v, In v vs -> forall t, unlabelled h t <= k -> exists ts t1, run h Whole t v ts t1) ->
  forall t, unlabelled h t <= k -> exists ts t1, runs h t vs ts t1.
Proof.
  intros h k. induction vs as [|v vs IH]; intros H t L.
  - exists [], t. constructor.
  - destruct (H v (or_introl eq_refl) t L) as (ts & t1 & R1). destruct (run_grows h) as (G & _).
    destruct (IH (fun w I => H w (or_intror I)) t1) as (us & t2 & R2).
    { pose proof (unlabelled_le h t t1 (G _ _ _ _ _ R1)). lia. }
    exists (ts ++ us), t2. econstructor; eassumption.
Qed.
Lemma ring_exists : forall h k p n q,
  (forall x a d m, cdrs h (Ptr q) m (Ptr x) -> nth_error h x = Some (Cons a d) -> forall t, unlabelled h t <= k -> exists ts t1, run h Whole t a ts t1) ->
  endless h (Ptr q) -> 0 < n -> cdrs h (Ptr q) n (Ptr p) ->
  forall t, unlabelled h t <= k -> exists ts t1, run h (Ring p) t (Ptr q) ts t1.
Proof.
  intros h k p. induction n as [|n IH]; intros q H E L C t K; [lia|].
  destruct (endless_pair h (Ptr q) E) as (q' & a & d & [= <-] & Eq).
  destruct (H q a d 0 (Cdrs_0 h (Ptr q)) Eq t K) as (ts & t1 & R1).
  apply (endless_cons h q a d Eq) in E. destruct (endless_pair h d E) as (r & ? & ? & -> & _).
  destruct (Nat.eq_dec r p) as [->|N].
  - exists ts, t1. eapply R_last; eassumption.
  - apply (cdrs_cons h q a (Ptr r) n _ Eq) in C. destruct n as [|n]; [inversion C; congruence|].
    destruct (run_grows h) as (G & _).
    destruct (IH r) with (t := t1) as (us & t2 & R2); try assumption; try lia.
    + intros y b d m Cx Ex. eapply (H y b d (S m)); [|exact Ex]. apply (cdrs_cons h q a (Ptr r) m _ Eq). exact Cx.
    + pose proof (unlabelled_le h t t1 (G _ _ _ _ _ R1)). lia.
    + exists (ts ++ us), t2. eapply R_next; eassumption.
Qed.
Lemma cdrs_reach : forall h v n w, cdrs h v n w -> reach h v w.
Proof.
  intros h v n w C. induction C as [|n p a d C IH E]; [constructor|]. eapply Reach_step; [exact IH|]. eapply Child_cdr. exact E.
Qed.
Lemma reach_trans : forall h u v w, reach h u v -> reach h v w -> reach h u w.
Proof. intros h u v w A B. induction B as [|x y B IH C]; [exact A|]. eapply Reach_step; eassumption. Qed.
Lemma sound_reach : forall h v w, sound h -> valid h v -> reach h v w -> valid h w.
Proof. intros h v w (_ & S) V R. induction R as [|x y R IH C]; [exact V|]. eapply S. exact C. Qed.
Lemma run_exists : forall h root, sound h -> valid h root -> (forall w, reach h root w -> fine h w) ->
  forall k v, Acc (inner h) v -> reach h root v -> forall t, unlabelled h t <= k ->
  (exists ts t1, run h Whole t v ts t1) /\ (~ endless h v -> exists ts t1, run h Rest t v ts t1).
Proof.
  intros h root S VR F. induction k as [k IHk] using lt_wf_ind.
  induction 1 as [v A IH]. intros R t L. destruct (run_grows h) as (Gr & _).
  assert (W : exists ts t1, run h Whole t v ts t1).
  { destruct v as [|b|p].
    - eexists _, _. constructor.
    - eexists _, _. constructor. constructor.
    - pose proof (sound_reach h root (Ptr p) S VR R p eq_refl) as Lp.
      destruct (nth_error h p) as [[a d|vs|n| |n]|] eqn:E.
      + destruct (endless_dec h d) as [Y|Y].
        * destruct (label_of (lt t) p) as [n|] eqn:Lb; [eexists _, _; eapply R_used; eassumption|].
          assert (Ep : endless h (Ptr p)) by (apply (endless_cons h p a d E); exact Y).
          pose proof (unlabelled_new h t p (Datatypes.S (length (lt t))) Lp Lb) as Lt.
          destruct (proj1 (F (Ptr p) R) Ep) as (n & Ln & Cn).
          destruct (ring_exists h (unlabelled h (Some ((p, Datatypes.S (length (lt t))) :: lt t))) p n p) with (t := Some ((p, Datatypes.S (length (lt t))) :: lt t)) as (ts & t1 & R1); auto.
          { intros x b e m Cx Ex t' Lt'. eapply (IHk (unlabelled h (Some ((p, Datatypes.S (length (lt t))) :: lt t)))); [lia| | |exact Lt'].
            - apply F. eapply Reach_step; [|eapply Child_car; exact Ex]. eapply reach_trans; [exact R|]. eapply cdrs_reach. exact Cx.
            - eapply Reach_step; [|eapply Child_car; exact Ex]. eapply reach_trans; [exact R|]. eapply cdrs_reach. exact Cx. }
          eexists _, _. eapply R_ring; eassumption.
        * assert (NE : ~ endless h (Ptr p)) by (rewrite (endless_cons h p a d E); exact Y).
          pose proof (Child_car h p a d E) as Ca. pose proof (Child_cdr h p a d E) as Cd.
          destruct (IH a (conj Ca NE) (Reach_step h root _ _ R Ca) (Some (lt t)) L) as ((ts & t1 & R1) & _).
          destruct (IH d (conj Cd NE) (Reach_step h root _ _ R Cd) t1) as (_ & H).
          { pose proof (unlabelled_le h (Some (lt t)) t1 (Gr _ _ _ _ _ R1)) as Q. change (unlabelled h (Some (lt t))) with (unlabelled h t) in Q. lia. }
          destruct (H Y) as (us & t2 & R2). eexists _, _. eapply R_pair; eassumption.
      + destruct (runs_exists h k vs) with (t := t) as (ts & t1 & R1); [|exact L|].
        { intros w I t' L'. pose proof (Child_item h p vs w E I) as Cw.
          assert (NE : ~ endless h (Ptr p)). { intros X. apply endless_pair in X. destruct X as (? & ? & ? & [= <-] & X). congruence. }
          apply (IH w (conj Cw NE) (Reach_step h root _ _ R Cw) t' L'). }
        eexists _, _. eapply R_vec; eassumption.
      + eexists _, _. apply R_leaf. eapply Leaf_text; eassumption.
      + eexists _, _. apply R_leaf. eapply Leaf_other; eassumption.
      + destruct (proj1 S p n E).
      + apply nth_error_None in E. lia. }
  split; [exact W|]. intros NE. destruct v as [|b|p].
  - eexists _, _. constructor.
  - destruct W as (ts & t1 & R1). eexists _, _. apply R_dot; [discriminate | intros p a d [=] | exact R1].
  - destruct (nth_error h p) as [[a d|vs|n| |n]|] eqn:E;
      try (destruct W as (ts & t1 & R1); eexists _, _; apply R_dot; [discriminate | intros q a d [= <-]; congruence | exact R1]).
    assert (Y : ~ endless h d) by (rewrite <- (endless_cons h p a d E); exact NE).
    pose proof (Child_car h p a d E) as Ca. pose proof (Child_cdr h p a d E) as Cd.
    destruct (IH a (conj Ca NE) (Reach_step h root _ _ R Ca) t L) as ((ts & t1 & R1) & _).
    destruct (IH d (conj Cd NE) (Reach_step h root _ _ R Cd) t1) as (_ & H).
    { pose proof (unlabelled_le h t t1 (Gr _ _ _ _ _ R1)). lia. }
    destruct (H Y) as (us & t2 & R2). eexists _, _. eapply R_more; eassumption.
Qed.
Theorem write_ends : forall h v, sound h -> valid h v -> (forall w, reach h v w -> fine h w) ->
  exists ts f, forall fuel, f <= fuel -> write_datum fuel h v = Done ts.
Proof.
  intros h v S V F. destruct (run_exists h v S V F (unlabelled h None) v) with (t := @None table) as ((ts & t1 & R) & _); auto.
  - apply F. constructor.
  - constructor.
  - destruct (run_write h) as (RW & _). destruct (RW _ _ _ _ _ R) as (f & Hf). exists ts, f. intros fuel L.
    unfold write_datum. rewrite (Hf fuel L). reflexivity.
Qed.

(** ** write-simple *)
Lemma simple_ok : forall h root, sound h -> valid h root -> all_proper h root -> forall v, finite h v -> reach h root v ->
  (exists ts f, (forall fuel, f <= fuel -> write_simple fuel false h v = Done ts) /\ shows h [] ts v []) /\
  (v = Nil \/ (exists q a d, v = Ptr q /\ nth_error h q = Some (Cons a d)) ->
   exists ts f, (forall fuel, f <= fuel -> write_simple fuel true h v = Done ts) /\ shows_rest h [] ts v []).
Proof.
  intros h root S V P v A. induction A as [v _ IH]. intros R. destruct v as [|b|p].
  - split.
    + exists [TOpen; TClose], 2. split; [|constructor]. intros [|[|fuel]] L; [lia|lia|reflexivity].
    + intros _. exists [TClose], 1. split; [|constructor]. intros [|fuel] L; [lia|reflexivity].
  - split.
    + exists [TAtom (Imm b)], 2. split; [|constructor; constructor]. intros [|[|fuel]] L; [lia|lia|reflexivity].
    + intros [[=]|(q & a & d & [=] & _)].
  - destruct (P p R) as (NV & PR). pose proof (sound_reach h root (Ptr p) S V R p eq_refl) as Lp.
    destruct (nth_error h p) as [[a d|vs|n| |n]|] eqn:E.
    + pose proof (Child_car h p a d E) as Ca. pose proof (Child_cdr h p a d E) as Cd.
      destruct (IH a Ca (Reach_step _ _ _ _ R Ca)) as ((ts & f1 & H1 & S1) & _).
      destruct (IH d Cd (Reach_step _ _ _ _ R Cd)) as (_ & (us & f2 & H2 & S2)); [exact (PR a d eq_refl)|].
      split.
      * exists (TOpen :: ts ++ us), (Datatypes.S (f1 + f2)). split; [|econstructor; eassumption].
        intros [|fuel] L; [lia|]. cbn [write_simple]. rewrite E, H1 by lia. cbn [rbind]. rewrite H2 by lia. reflexivity.
      * intros _. exists (ts ++ us), (Datatypes.S (f1 + f2)). split; [|econstructor; eassumption].
        intros [|fuel] L; [lia|]. cbn [write_simple]. rewrite E, H1 by lia. cbn [rbind]. rewrite H2 by lia. reflexivity.
    + destruct (NV vs eq_refl).
    + split; [|intros [[=]|(q & a & d & [= <-] & X)]; congruence]. exists [TAtom (Ptr p)], 2. split; [|constructor; eapply Atomic_text; exact E].
      intros [|[|fuel]] L; [lia|lia|]. cbn [write_simple]. rewrite E. unfold write_datum. cbn [write]. rewrite E. reflexivity.
    + split; [|intros [[=]|(q & a & d & [= <-] & X)]; congruence]. exists [TAtom (Ptr p)], 2. split; [|constructor; eapply Atomic_other; exact E].
      intros [|[|fuel]] L; [lia|lia|]. cbn [write_simple]. rewrite E. unfold write_datum. cbn [write]. rewrite E. reflexivity.
    + destruct (proj1 S p n E).
    + apply nth_error_None in E. lia.
Qed.

(** ** Labels are declared once *)
Scheme shows_mut := Induction for shows Sort Prop
  with shows_rest_mut := Induction for shows_rest Sort Prop
  with shows_all_mut := Induction for shows_all Sort Prop.
Combined Scheme shows_ind3 from shows_mut, shows_rest_mut, shows_all_mut.
Fixpoint decls (ts : list token) : list nat :=
  match ts with [] => [] | TDecl n :: ts => n :: decls ts | _ :: ts => decls ts end.
Lemma decls_app : forall ts us, decls (ts ++ us) = decls ts ++ decls us.
Proof. induction ts as [|[v| | | | |n|n] ts IH]; intros us; cbn; rewrite ?IH; reflexivity. Qed.
Lemma shows_decls : forall h,
  (forall E ts v E', shows h E ts v E' -> map fst E' = rev (decls ts) ++ map fst E /\ (NoDup (map fst E) -> NoDup (map fst E'))) /\
  (forall E ts v E', shows_rest h E ts v E' -> map fst E' = rev (decls ts) ++ map fst E /\ (NoDup (map fst E) -> NoDup (map fst E'))) /\
  (forall E ts v E', shows_all h E ts v E' -> map fst E' = rev (decls ts) ++ map fst E /\ (NoDup (map fst E) -> NoDup (map fst E'))).
Proof.
  intros h. apply shows_ind3.
  - intros. split; [reflexivity|auto].
  - intros. split; [reflexivity|auto].
  - intros. split; [reflexivity|auto].
  - intros E n p ts E' F _ _ (H & N). split.
    + rewrite H. cbn. rewrite <- app_assoc. reflexivity.
    + intros ND. apply N. cbn. constructor; [|exact ND]. intros I. apply in_map_iff in I. destruct I as ((m & q) & [= ->] & I).
      exact (F q I).
  - intros E p a d ts us E1 E2 _ _ (H1 & N1) _ (H2 & N2). split; [|auto]. cbn [decls]. rewrite H2, H1, decls_app, rev_app_distr, app_assoc. reflexivity.
  - intros E p vs ts E' _ _ (H & N). split; [|auto]. cbn [decls]. rewrite decls_app, H. cbn. rewrite app_nil_r. reflexivity.
  - intros. split; [reflexivity|auto].
  - intros E ts v E' _ (H & N). split; [|auto]. cbn [decls]. rewrite decls_app, H. cbn. rewrite app_nil_r. reflexivity.
  - intros E p a d ts us E1 E2 _ _ (H1 & N1) _ (H2 & N2). split; [|auto]. rewrite H2, H1, decls_app, rev_app_distr, app_assoc. reflexivity.
  - intros. split; [reflexivity|auto].
  - intros E ts v E1 us vs E2 _ (H1 & N1) _ (H2 & N2). split; [|auto]. rewrite H2, H1, decls_app, rev_app_distr, app_assoc. reflexivity.
Qed.
Lemma depicts_once : forall h ts v, depicts h ts v -> NoDup (decls ts).
Proof.
  intros h ts v (E & H). destruct (shows_decls h) as (X & _). destruct (X _ _ _ _ H) as (K & N). specialize (N (NoDup_nil _)).
  rewrite K in N. cbn in N. rewrite app_nil_r in N. apply NoDup_rev in N. rewrite rev_involutive in N. exact N.
Qed.

(** Checking a heap *)
Definition checked (h : store) : bool :=
  forallb (fun o => match o with Label _ => false | _ => forallb (fun v => match v with Ptr p => Nat.ltb p (length h) | _ => true end) (parts o) end) h.
Lemma checked_sound : forall h, checked h = true -> sound h.
Proof.
  intros h H. unfold checked in H. rewrite forallb_forall in H. split.
  - intros p n E. apply nth_error_In in E. discriminate (H _ E).
  - intros v w C p ->. assert (X : exists q o, nth_error h q = Some o /\ In (Ptr p) (parts o)).
    { inversion C; subst; eexists _, _; (split; [eassumption|]); cbn; auto. }
    destruct X as (q & o & E & I). apply nth_error_In in E. specialize (H _ E).
    destruct o as [a d|vs|n| |n]; try discriminate; rewrite forallb_forall in H; apply Nat.ltb_lt; apply (H _ I).
Qed.
