(** Proofs about SRFI 78. *)
From Coq Require Import String List Bool Arith Lia.
From Verif Require Import Srfi78 Srfi78Spec.
Import ListNotations.

Section Proofs.
Context {V : Type}.
Variable truth : V -> bool.
Notation prog := (prog (V := V)). Notation state := (state (V := V)). Notation event := (event (V := V)).

(** the state of the library after a history *)
Definition agrees (s : state) (h : list event) : Prop :=
  correct s = length (good h) /\ failed s = rev (map (fun c => (expression c, actual c, expected c)) (bad h)).

Lemma since_snoc (h : list event) e : since (h ++ [e]) = match e with Cleared => [] | Done_check c => since h ++ [c] end.
Proof.
  assert (G : forall cs, since_from cs (h ++ [e]) = match e with Cleared => [] | Done_check c => since_from cs h ++ [c] end); [|apply G].
  induction h as [|x h IH]; intros cs; [destruct e; reflexivity|]. cbn [app since_from]. destruct x; apply IH.
Qed.
Lemma agrees_loaded : agrees loaded [].
Proof. split; reflexivity. Qed.
Lemma agrees_put l s h : agrees s h -> agrees (put l s) h.
Proof. exact (fun H => H). Qed.
Lemma agrees_reset h m o : agrees (State m 0 [] o) (h ++ [Cleared]).
Proof. unfold agrees, good, bad. rewrite since_snoc. split; reflexivity. Qed.
Lemma agrees_correct s h e v x : agrees s h -> agrees (add_correct s) (h ++ [Done_check (Completed e v x true)]).
Proof.
  intros [C F]. unfold agrees, good, bad in *. rewrite since_snoc, !filter_app. cbn. rewrite app_nil_r, app_length. cbn. split; [lia|exact F].
Qed.
Lemma agrees_failed s h e v x : agrees s h -> agrees (add_failed e v x s) (h ++ [Done_check (Completed e v x false)]).
Proof.
  intros [C F]. unfold agrees, good, bad in *. rewrite since_snoc, !filter_app. cbn. rewrite app_nil_r, map_app, rev_app_distr. cbn. split; [exact C|]. rewrite <- F. reflexivity.
Qed.
Lemma split_length A (f : A -> bool) l : length (filter f l) + length (filter (fun x => negb (f x)) l) = length l.
Proof. induction l as [|x l IH]; [reflexivity|]. cbn. destruct (f x); cbn; lia. Qed.
Lemma passed_ok s h n : agrees s h -> (check_passed n s = true <-> passed n h).
Proof.
  intros [C F]. unfold check_passed, passed. rewrite F, rev_length, map_length, C, andb_true_iff, !Nat.eqb_eq. unfold good, bad.
  pose proof (split_length _ verdict (since h)) as L. split.
  - intros (B & G). split; [lia|]. intros c I. destruct (verdict c) eqn:E; [reflexivity|].
    assert (J : In c (filter (fun c => negb (verdict c)) (since h))) by (apply filter_In; split; [exact I|rewrite E; reflexivity]).
    destruct (filter (fun c => negb (verdict c)) (since h)); [destruct J|discriminate].
  - intros (N & A). assert (B : filter (fun c => negb (verdict c)) (since h) = []).
    { destruct (filter (fun c => negb (verdict c)) (since h)) as [|c l] eqn:E; [reflexivity|].
      assert (J : In c (filter (fun c => negb (verdict c)) (since h))) by (rewrite E; left; reflexivity). apply filter_In in J. destruct J as (I & J). rewrite (A c I) in J. discriminate. }
    rewrite B in L |- *. cbn in L |- *. split; [reflexivity|lia].
Qed.
Lemma report_agrees s h : agrees s h -> agrees (check_report s) h.
Proof. intros A. unfold check_report. destruct (1 <=? mode_number (check_mode s)); [apply agrees_put|]; exact A. Qed.
Lemma report_mode (s : state) : check_mode (check_report s) = check_mode s.
Proof. unfold check_report. destruct (1 <=? mode_number (check_mode s)); reflexivity. Qed.
Lemma not_off m : 1 <=? mode_number m = true <-> m <> Off.
Proof. destruct m; cbn; split; congruence. Qed.

Lemma run_ok : forall p s h o s', agrees s h -> run truth p s = (o, s') ->
  exists h', happens truth p (check_mode s) h o (check_mode s') h' /\ agrees s' h'.
Proof.
  induction p as [v| |[m|] k IHk|k IHk|e t IHt q IHq x IHx k IHk|k IHk|n k IHk|v k IHk|p IHp k IHk]; intros s h o s' A R; cbn [run] in R.
  - injection R as <- <-. exists h. split; [constructor|exact A].
  - injection R as <- <-. exists h. split; [constructor|exact A].
  - destruct (IHk (State m (correct s) (failed s) (output s)) h _ _ A R) as (h' & H & A'). exists h'. split; [constructor; exact H|exact A'].
  - injection R as <- <-. exists h. split; [constructor|exact A].
  - destruct (IHk _ (h ++ [Cleared]) _ _ (agrees_reset h _ _) R) as (h' & H & A'). exists h'. split; [constructor; exact H|exact A'].
  - destruct (1 <=? mode_number (check_mode s)) eqn:M.
    2:{ assert (E : check_mode s = Off) by (destruct (check_mode s); [reflexivity|discriminate..]). destruct (IHk _ _ _ _ A R) as (h' & H & A'). exists h'. split; [|exact A']. rewrite E in H |- *. constructor. exact H. }
    apply not_off in M. destruct (run truth x s) as (rx & s1) eqn:Rx. destruct (IHx _ _ _ _ A Rx) as (h1 & H1 & A1). destruct rx as [vx|].
    2:{ injection R as <- <-. exists h1. split; [apply H_expected_escapes; assumption|exact A1]. }
    destruct (check_mode s1) eqn:M1.
    + destruct (IHk _ _ _ _ A1 R) as (h' & H & A'). exists h'. split; [|exact A']. rewrite M1 in H. eapply H_turned_off; eassumption.
    + destruct (run truth t s1) as (rt & s2) eqn:Rt. destruct (IHt _ _ _ _ A1 Rt) as (h2 & H2 & A2). rewrite M1 in H2. destruct rt as [v|].
      2:{ injection R as <- <-. exists h2. split; [|exact A2]. eapply H_thunk_escapes; [exact M|exact H1|discriminate|exact H2]. }
      destruct (run truth (q v vx) s2) as (rq & s3) eqn:Rq. destruct (IHq v vx _ _ _ _ A2 Rq) as (h3 & H3 & A3). destruct rq as [b|].
      2:{ injection R as <- <-. exists h3. split; [|exact A3]. eapply H_equal_escapes; [exact M|exact H1|discriminate|exact H2|exact H3]. }
      destruct (truth b) eqn:B.
      * destruct (IHk _ _ _ _ (agrees_correct _ _ e v vx A3) R) as (h' & H & A'). exists h'. split; [|exact A'].
        eapply H_check; [exact M|exact H1|discriminate|exact H2|exact H3|]. rewrite B. exact H.
      * destruct (IHk _ _ _ _ (agrees_failed _ _ e v vx A3) R) as (h' & H & A'). exists h'. split; [|exact A'].
        eapply H_check; [exact M|exact H1|discriminate|exact H2|exact H3|]. rewrite B. exact H.
    + destruct (run truth t s1) as (rt & s2) eqn:Rt. destruct (IHt _ _ _ _ A1 Rt) as (h2 & H2 & A2). rewrite M1 in H2. destruct rt as [v|].
      2:{ injection R as <- <-. exists h2. split; [|exact A2]. eapply H_thunk_escapes; [exact M|exact H1|discriminate|exact H2]. }
      destruct (run truth (q v vx) s2) as (rq & s3) eqn:Rq. destruct (IHq v vx _ _ _ _ A2 Rq) as (h3 & H3 & A3). destruct rq as [b|].
      2:{ injection R as <- <-. exists h3. split; [|exact A3]. eapply H_equal_escapes; [exact M|exact H1|discriminate|exact H2|exact H3]. }
      destruct (truth b) eqn:B.
      * destruct (IHk _ _ _ _ (agrees_correct _ _ e v vx A3) R) as (h' & H & A'). exists h'. split; [|exact A'].
        eapply H_check; [exact M|exact H1|discriminate|exact H2|exact H3|]. rewrite B. exact H.
      * assert (A4 : agrees (put (report_failed vx) (put (report_actual v) (put (report_expression e) s3))) h3) by exact A3.
        destruct (IHk _ _ _ _ (agrees_failed _ _ e v vx A4) R) as (h' & H & A'). exists h'. split; [|exact A'].
        eapply H_check; [exact M|exact H1|discriminate|exact H2|exact H3|]. rewrite B. exact H.
    + assert (A1' : agrees (put (report_expression e) s1) h1) by exact A1.
      destruct (run truth t (put (report_expression e) s1)) as (rt & s2) eqn:Rt. destruct (IHt _ _ _ _ A1' Rt) as (h2 & H2 & A2). cbn [put check_mode] in H2. rewrite M1 in H2. destruct rt as [v|].
      2:{ injection R as <- <-. exists h2. split; [|exact A2]. eapply H_thunk_escapes; [exact M|exact H1|discriminate|exact H2]. }
      assert (A2' : agrees (put (report_actual v) s2) h2) by exact A2.
      destruct (run truth (q v vx) (put (report_actual v) s2)) as (rq & s3) eqn:Rq. destruct (IHq v vx _ _ _ _ A2' Rq) as (h3 & H3 & A3). cbn [put check_mode] in H3. destruct rq as [b|].
      2:{ injection R as <- <-. exists h3. split; [|exact A3]. eapply H_equal_escapes; [exact M|exact H1|discriminate|exact H2|exact H3]. }
      destruct (truth b) eqn:B.
      * assert (A4 : agrees (put (report_correct 1) s3) h3) by exact A3.
        destruct (IHk _ _ _ _ (agrees_correct _ _ e v vx A4) R) as (h' & H & A'). exists h'. split; [|exact A'].
        eapply H_check; [exact M|exact H1|discriminate|exact H2|exact H3|]. rewrite B. exact H.
      * assert (A4 : agrees (put (report_failed vx) s3) h3) by exact A3.
        destruct (IHk _ _ _ _ (agrees_failed _ _ e v vx A4) R) as (h' & H & A'). exists h'. split; [|exact A'].
        eapply H_check; [exact M|exact H1|discriminate|exact H2|exact H3|]. rewrite B. exact H.
  - destruct (IHk _ _ _ _ (report_agrees _ _ A) R) as (h' & H & A'). exists h'. split; [|exact A']. rewrite report_mode in H. constructor. exact H.
  - destruct (IHk _ _ _ _ _ A R) as (h' & H & A'). exists h'. split; [|exact A']. econstructor; [|exact H]. apply passed_ok. exact A.
  - destruct (IHk _ _ _ _ (agrees_put [Write v] _ _ A) R) as (h' & H & A'). exists h'. split; [|exact A']. constructor. exact H.
  - destruct (run truth p s) as (r1 & s1) eqn:R1. destruct (IHp _ _ _ _ A R1) as (h1 & H1 & A1). destruct (IHk _ _ _ _ _ A1 R) as (h' & H & A'). exists h'. split; [|exact A']. econstructor; eassumption.
Qed.

Lemma happens_once : forall p m h o m1 h1, happens truth p m h o m1 h1 -> forall o' m1' h1', happens truth p m h o' m1' h1' -> o = o' /\ m1 = m1' /\ h1 = h1'.
Proof.
  intros p m h o m1 h1 H. induction H; intros o' m1' h1' H'; inversion H'; subst; try congruence; try (split; [reflexivity|split; reflexivity]); auto;
  try match goal with A : ?b = true <-> ?P, B : ?c = true <-> ?P |- _ => assert (b = c) as <- by (destruct b, c; intuition congruence); auto; fail end;
  repeat match goal with
  | IH : forall o' m1' h1', happens truth ?p ?m ?h o' m1' h1' -> _, K : happens truth ?p ?m ?h _ _ _ |- _ =>
    destruct (IH _ _ _ K) as (? & ? & ?); clear IH; try discriminate; try congruence;
    repeat match goal with E : Some _ = Some _ |- _ => injection E as E end; subst
  end; try congruence; auto.
Qed.

Lemma report_ok s h : agrees s h -> exists l, reports (check_mode s) h l /\ check_report s = put l s.
Proof.
  intros [C F]. unfold check_report. destruct (1 <=? mode_number (check_mode s)) eqn:M.
  2:{ exists []. destruct s as [m c f o]. destruct m; [|discriminate..]. split; [constructor|]. unfold put. cbn. rewrite app_nil_r. reflexivity. }
  apply not_off in M. rewrite F, rev_involutive, rev_length, map_length, C. destruct (bad h) as [|c cs] eqn:B; cbn [map].
  - eexists. split; [apply Reports_good; [exact M|exact B]|]. unfold summary. rewrite B. reflexivity.
  - destruct (mode_number (check_mode s) <=? 1) eqn:M1.
    + assert (E : check_mode s = Summary) by (destruct (check_mode s); [congruence|reflexivity|discriminate..]). eexists. split; [rewrite E; apply Reports_summary|]. unfold summary. rewrite B. reflexivity.
    + assert (E : check_mode s = Report_failed \/ check_mode s = Report_all) by (destruct (check_mode s); [discriminate..|left; reflexivity|right; reflexivity]).
      eexists. split; [eapply Reports_first; [exact E|exact B]|]. unfold summary, failure. rewrite B. reflexivity.
Qed.
End Proofs.
