(** Proofs about the derived forms. *)
From Coq Require Import List Bool Arith Lia.
From Verif Require Import DerivedForms DerivedSpec.
Import ListNotations.

Ltac inv H := inversion H; clear H; subst.

Lemma flist_inj : forall l m, flist l = flist m -> l = m.
Proof. induction l as [|a l IH]; destruct m; cbn; intros E; inversion E; [reflexivity|]. f_equal. auto. Qed.
Lemma plain_flist : forall l, plain (flist l) = forallb plain l.
Proof. induction l; cbn; congruence. Qed.

Section Proofs.
Variables value state loc : Type.
Variable truth : value -> bool.
Variables v_true v_false v_unspecified : value.
Notation env := (env loc).
Variable user : form -> env -> state -> value -> state -> Prop.
Variable user_body : form -> env -> state -> value -> state -> Prop.
Variable apply : value -> list value -> state -> value -> state -> Prop.
Variable eqv : value -> value -> bool.
Variable datum : form -> value.
Variable alloc : state -> value -> loc * state.
Variable assign : state -> loc -> value -> state.
Variable content : state -> loc -> option value.
Variable closure : form -> form -> env -> state -> value * state.
Variable undefined : value.
Variable same : name -> form -> bool.
Hypothesis true_true : truth v_true = true.
Hypothesis only_false : forall v, truth v = false <-> v = v_false.
Notation ev := (ev value state loc truth v_true v_false v_unspecified user user_body apply eqv datum alloc assign content closure undefined same).
Notation evb := (evb value state loc truth v_true v_false v_unspecified user user_body apply eqv datum alloc assign content closure undefined same).
Notation evl := (evl value state loc truth v_true v_false v_unspecified user user_body apply eqv datum alloc assign content closure undefined same).
Notation sequence := (sequence value state loc user).
Notation users := (users value state loc user).
Notation tmps := (tmps value loc).
Notation set := (set value loc).
Notation memv := (memv value eqv datum).

Ltac bad := match goal with H : macro _ ?k = Some _ |- _ => discriminate H | H : plain _ = true |- _ => discriminate H end.

Lemma user_iff : forall t r e s v s1, plain e = true -> (ev t r e s v s1 <-> user e r s v s1).
Proof.
  intros t r e s v s1 P. split; [|intros; apply V_user; assumption].
  intros H. inv H; try discriminate; try assumption; cbn in P; try (rewrite ?andb_false_r in P; discriminate).
Qed.
Lemma lit_true : forall t r s v s1, ev t r (Lit l_true) s v s1 <-> v = v_true /\ s1 = s.
Proof. intros. split; [intros H; inv H; [discriminate|auto]|intros [-> ->]; apply V_true]. Qed.
Lemma lit_false : forall t r s v s1, ev t r (Lit l_false) s v s1 <-> v = v_false /\ s1 = s.
Proof. intros. split; [intros H; inv H; [discriminate|auto]|intros [-> ->]; apply V_false]. Qed.
Lemma lit_unspecified : forall t r s v s1, ev t r (Lit l_unspecified) s v s1 <-> v = v_unspecified /\ s1 = s.
Proof. intros. split; [intros H; inv H; [discriminate|auto]|intros [-> ->]; apply V_unspecified]. Qed.
Lemma tmp_iff : forall t r k u s v s1, t k = Some (TVal _ _ u) -> (ev t r (Ren k) s v s1 <-> v = u /\ s1 = s).
Proof. intros. split; [intros E; inv E; [discriminate|split; congruence]|intros [-> ->]; apply V_tmp; assumption]. Qed.
Lemma if_iff : forall t r a b c s v s2, ev t r (flist [Ren n_if; a; b; c]) s v s2 <->
  exists u s1, ev t r a s u s1 /\ if truth u then ev t r b s1 v s2 else ev t r c s1 v s2.
Proof.
  intros. split.
  - intros H. inv H; try bad.
    + exists u, s1. split; [assumption|]. match goal with T : truth u = _ |- _ => rewrite T end. assumption.
    + exists u, s1. split; [assumption|]. match goal with T : truth u = _ |- _ => rewrite T end. assumption.
  - intros (u & s1 & A & B). destruct (truth u) eqn:T.
    + eapply V_if_true; eassumption.
    + eapply V_if_false; eassumption.
Qed.

Lemma if2_iff : forall t r a b s v s2, ev t r (flist [Ren n_if; a; b]) s v s2 <->
  exists u s1, ev t r a s u s1 /\ if truth u then ev t r b s1 v s2 else v = v_unspecified /\ s2 = s1.
Proof.
  intros. split.
  - intros H. inv H; try bad.
    + exists u, s1. split; [assumption|]. match goal with T : truth u = _ |- _ => rewrite T end. assumption.
    + exists u, s2. split; [assumption|]. match goal with T : truth u = _ |- _ => rewrite T end. auto.
  - intros (u & s1 & A & B). destruct (truth u) eqn:T.
    + eapply V_if_true; eassumption.
    + destruct B as [-> ->]. eapply V_if_none; eassumption.
Qed.
Lemma evb_iff : forall es t r s v s1, forallb plain es = true -> (evb t r es s v s1 <-> sequence es r s v s1).
Proof.
  induction es as [|e es IH]; intros t r s v s1 P; [split; intros H; inv H|].
  cbn in P. apply andb_prop in P as [P1 P2]. split; intros H; inv H.
  - constructor. eapply user_iff; eassumption.
  - econstructor; [eapply user_iff; eassumption|apply (IH t); assumption|assumption].
  - constructor. apply user_iff; assumption.
  - econstructor; [apply user_iff; eassumption|apply IH; assumption|assumption].
Qed.
Lemma begin_evb : forall es t r s v s1, ev t r (Pair (Ren n_begin) (flist es)) s v s1 <-> evb t r es s v s1.
Proof.
  intros es t r s v s1. split; intros H.
  - inv H; try bad; try (match goal with H : flist _ = _ |- _ => try apply flist_inj in H; subst end; assumption).
  - apply V_begin; assumption.
Qed.
Lemma begin_iff : forall es t r s v s1, forallb plain es = true -> (ev t r (Pair (Ren n_begin) (flist es)) s v s1 <-> sequence es r s v s1).
Proof. intros. rewrite begin_evb. apply evb_iff. assumption. Qed.
Lemma let_tmp_iff : forall t r k e init s v s2, ev t r (flist [flist [Ren n_lambda; flist [Ren k]; e]; init]) s v s2 <->
  exists u s1, ev t r init s u s1 /\ ev (set t k (TVal _ _ u)) r e s1 v s2.
Proof.
  intros. split.
  - intros H. inv H; try bad; eauto. destruct xs as [|x [|y xs]]; discriminate.
  - intros (u & s1 & A & B). eapply V_let_tmp; eassumption.
Qed.
Lemma call_iff : forall t r f k x s v s2, plain f = true -> t k = Some (TVal _ _ x) ->
  (ev t r (flist [f; Ren k]) s v s2 <-> exists w s1, user f r s w s1 /\ apply w [x] s1 v s2).
Proof.
  intros t r f k x s v s2 P T. split.
  - intros H. inv H; try (cbn in P; rewrite ?andb_false_r in P; discriminate); try (cbn in *; rewrite ?andb_false_r in *; discriminate); try discriminate.
    match goal with A : t k = Some _, B : t k = Some _ |- _ => rewrite A in B; injection B as -> end. eauto.
  - intros (w & s1 & A & B). eapply V_call; eassumption.
Qed.
Lemma macro_iff : forall t r k m rest s v s1, macro same k = Some m -> (ev t r (Pair (Ren k) rest) s v s1 <-> ev t r (m (Pair (Ren k) rest)) s v s1).
Proof.
  intros t r k m rest s v s1 M. split.
  - intros H. inv H; try discriminate. congruence.
  - intros H. eapply V_macro; eassumption.
Qed.
Lemma set_same : forall t k x, k = n_result \/ k = n_it \/ k = n_rec -> set t k x k = Some x.
Proof. intros t k x [-> | [-> | ->]]; reflexivity. Qed.

(** ** cond *)
Variables els arr : form.
Hypothesis els_ok : same n_else els = true.
Hypothesis arr_ok : same n_arrow arr = true.
Notation clause_form := (clause_form els arr).
Notation cond_means := (cond_means value state loc truth v_unspecified user apply).
Lemma cond_else : forall h c rest, same n_else (car c) = true -> cond_ same (Pair h (Pair c rest)) = Pair (Ren n_begin) (cdr c).
Proof. intros h c rest E. unfold cond_. cbn. rewrite E. reflexivity. Qed.
Lemma cond_test : forall h e rest, same n_else e = false -> cond_ same (Pair h (Pair (flist [e]) rest)) =
  flist [flist [Ren n_lambda; flist [Ren n_result]; flist [Ren n_if; Ren n_result; Ren n_result; Pair (Ren n_cond) rest]]; e].
Proof. intros h e rest E. unfold cond_. cbn. rewrite E. reflexivity. Qed.
Lemma cond_arrow : forall h e f rest, same n_else e = false -> cond_ same (Pair h (Pair (flist [e; arr; f]) rest)) =
  flist [flist [Ren n_lambda; flist [Ren n_result]; flist [Ren n_if; Ren n_result; flist [f; Ren n_result]; Pair (Ren n_cond) rest]]; e].
Proof. intros h e f rest E. unfold cond_. cbn. rewrite E, arr_ok. reflexivity. Qed.
Lemma cond_body : forall h e e1 es rest, same n_else e = false -> same n_arrow e1 = false -> cond_ same (Pair h (Pair (Pair e (flist (e1 :: es))) rest)) =
  flist [Ren n_if; e; Pair (Ren n_begin) (flist (e1 :: es)); Pair (Ren n_cond) rest].
Proof. intros h e e1 es rest E A. unfold cond_. cbn. rewrite E, A. reflexivity. Qed.
Lemma cond_iff : forall cs t r s v s1, clauses_ok same cs ->
  (ev t r (Pair (Ren n_cond) (flist (List.map clause_form cs))) s v s1 <-> cond_means cs r s v s1).
Proof.
  induction cs as [|c cs IH]; intros t r s v s1 W.
  - rewrite macro_iff by reflexivity. unfold cond_. cbn [List.map flist cdr is_null]. rewrite lit_unspecified. split.
    + intros [-> ->]. constructor.
    + intros H. inv H. auto.
  - destruct W as [W1 W2]. rewrite macro_iff by reflexivity. cbn [List.map]. change (flist (clause_form c :: List.map clause_form cs)) with (Pair (clause_form c) (flist (List.map clause_form cs))).
    destruct c as [es|e|e f|e es]; cbn [DerivedSpec.clause_form].
    + destruct W1 as [W1 P]. rewrite cond_else by exact els_ok. cbn [cdr]. rewrite begin_iff by exact P. destruct cs; [|discriminate]. split; intros H; [constructor; assumption|].
      inv H; [assumption|contradiction].
    + destruct W1 as [P N]. rewrite cond_test by exact N. rewrite let_tmp_iff. split.
      * intros (u & s2 & A & B). apply user_iff in A; [|exact P]. rewrite if_iff in B. destruct B as (w & s3 & B & C).
        rewrite (tmp_iff _ _ _ u) in B by reflexivity. destruct B as [-> ->]. destruct (truth u) eqn:T.
        -- rewrite (tmp_iff _ _ _ u) in C by reflexivity. destruct C as [-> ->]. constructor; assumption.
        -- apply IH in C; [|exact W2]. eapply CM_next; [reflexivity|eassumption..].
      * intros H. inv H.
        -- exists v, s1. split; [apply user_iff; assumption|]. rewrite if_iff. exists v, s1. split; [eapply V_tmp; reflexivity|].
           match goal with H : truth v = true |- _ => rewrite H end. eapply V_tmp; reflexivity.
        -- eexists _, _. split; [apply user_iff; eassumption|]. rewrite if_iff. eexists _, _. split; [eapply V_tmp; reflexivity|].
           match goal with H : truth _ = false |- _ => rewrite H end. apply IH; assumption.
    + destruct W1 as (P & N & PF). rewrite cond_arrow by exact N. rewrite let_tmp_iff. split.
      * intros (u & s2 & A & B). apply user_iff in A; [|exact P]. rewrite if_iff in B. destruct B as (w & s3 & B & C).
        rewrite (tmp_iff _ _ _ u) in B by reflexivity. destruct B as [-> ->]. destruct (truth u) eqn:T.
        -- rewrite (call_iff _ _ _ _ u) in C by (assumption || reflexivity). destruct C as (w & s4 & C & D). eapply CM_arrow; eassumption.
        -- apply IH in C; [|exact W2]. eapply CM_next; [reflexivity|eassumption..].
      * intros H. inv H.
        -- eexists _, _. split; [apply user_iff; eassumption|]. rewrite if_iff. eexists _, _. split; [eapply V_tmp; reflexivity|].
           match goal with H : truth _ = true |- _ => rewrite H end. apply (call_iff _ _ _ _ v0); [assumption|reflexivity|]. eauto.
        -- eexists _, _. split; [apply user_iff; eassumption|]. rewrite if_iff. eexists _, _. split; [eapply V_tmp; reflexivity|].
           match goal with H : truth _ = false |- _ => rewrite H end. apply IH; assumption.
    + destruct W1 as (P & N & PF & F). destruct es as [|e1 es]; [destruct F|]. cbn in F. rewrite cond_body by assumption. rewrite if_iff. split.
      * intros (u & s2 & A & B). apply user_iff in A; [|exact P]. destruct (truth u) eqn:T.
        -- apply (begin_iff (e1 :: es)) in B; [|exact PF]. eapply CM_body; eassumption.
        -- apply IH in B; [|exact W2]. eapply CM_next; [reflexivity|eassumption..].
      * intros H. inv H.
        -- eexists _, _. split; [apply user_iff; eassumption|]. match goal with H : truth _ = true |- _ => rewrite H end. apply (begin_iff (e1 :: es)); assumption.
        -- eexists _, _. split; [apply user_iff; eassumption|]. match goal with H : truth _ = false |- _ => rewrite H end. apply IH; assumption.
Qed.

(** ** and, or *)
Notation and_means := (and_means value state loc truth v_true user).
Notation or_means := (or_means value state loc truth v_false user).
Lemma and_iff : forall es t r s v s1, forallb plain es = true ->
  (ev t r (Pair (Ren n_and) (flist es)) s v s1 <-> and_means es r s v s1).
Proof.
  induction es as [|e es IH]; intros t r s v s1 P; rewrite macro_iff by reflexivity.
  - change (and_ (Pair (Ren n_and) (flist []))) with (Lit l_true). rewrite lit_true. split; [intros [-> ->]; constructor|].
    intros H. remember [] as l. destruct H; try discriminate. auto.
  - cbn in P. apply andb_prop in P as [P1 P2]. destruct es as [|e2 es].
    + change (and_ (Pair (Ren n_and) (flist [e]))) with e. rewrite user_iff by exact P1. split; [apply AM_last|].
      intros H. inv H; [assumption|assumption|congruence].
    + change (and_ (Pair (Ren n_and) (flist (e :: e2 :: es)))) with (flist [Ren n_if; e; Pair (Ren n_and) (flist (e2 :: es)); Lit l_false]). rewrite if_iff. split.
      * intros (u & s2 & A & B). apply user_iff in A; [|exact P1]. destruct (truth u) eqn:T.
        -- apply IH in B; [|exact P2]. eapply AM_next; try eassumption. discriminate.
        -- rewrite lit_false in B. destruct B as [-> ->]. apply AM_stop; [|apply only_false; reflexivity]. apply only_false in T. congruence.
      * intros H. inv H.
        -- eexists _, _. split; [apply user_iff; eassumption|]. match goal with H : truth _ = _ |- _ => rewrite H; apply only_false in H; rewrite H end. apply V_false.
        -- eexists _, _. split; [apply user_iff; eassumption|]. match goal with H : truth _ = _ |- _ => rewrite H end. apply IH; assumption.
Qed.
Lemma or_iff : forall es t r s v s1, forallb plain es = true ->
  (ev t r (Pair (Ren n_or) (flist es)) s v s1 <-> or_means es r s v s1).
Proof.
  induction es as [|e es IH]; intros t r s v s1 P; rewrite macro_iff by reflexivity.
  - change (or_ (Pair (Ren n_or) (flist []))) with (Lit l_false). rewrite lit_false. split; [intros [-> ->]; constructor|].
    intros H. remember [] as l. destruct H; try discriminate. auto.
  - cbn in P. apply andb_prop in P as [P1 P2]. destruct es as [|e2 es].
    + change (or_ (Pair (Ren n_or) (flist [e]))) with e. rewrite user_iff by exact P1. split; [apply OM_last|].
      intros H. inv H; [assumption|assumption|congruence].
    + change (or_ (Pair (Ren n_or) (flist (e :: e2 :: es)))) with
        (flist [flist [Ren n_lambda; flist [Ren n_result]; flist [Ren n_if; Ren n_result; Ren n_result; Pair (Ren n_or) (flist (e2 :: es))]]; e]).
      rewrite let_tmp_iff. split.
      * intros (u & s2 & A & B). apply user_iff in A; [|exact P1]. rewrite if_iff in B. destruct B as (w & s3 & B & C).
        rewrite (tmp_iff _ _ _ u) in B by reflexivity. destruct B as [-> ->]. destruct (truth u) eqn:T.
        -- rewrite (tmp_iff _ _ _ u) in C by reflexivity. destruct C as [-> ->]. apply OM_stop; assumption.
        -- apply IH in C; [|exact P2]. eapply OM_next; try eassumption. discriminate.
      * intros H. inv H.
        -- eexists _, _. split; [apply user_iff; eassumption|]. rewrite if_iff. eexists _, _. split; [eapply V_tmp; reflexivity|].
           match goal with H : truth _ = _ |- _ => rewrite H end. eapply V_tmp; reflexivity.
        -- eexists _, _. split; [apply user_iff; eassumption|]. rewrite if_iff. eexists _, _. split; [eapply V_tmp; reflexivity|].
           match goal with H : truth _ = _ |- _ => rewrite H end. apply IH; assumption.
Qed.
(** ** when, unless *)
Notation when_means := (when_means value state loc truth v_unspecified user).
Lemma when_iff : forall h e es t r s v s1, plain e = true -> forallb plain es = true ->
  (ev t r (when_ (Pair h (Pair e (flist es)))) s v s1 <-> when_means true e es r s v s1).
Proof.
  intros h e es t r s v s1 P1 P2. change (when_ (Pair h (Pair e (flist es)))) with (flist [Ren n_if; e; Pair (Ren n_begin) (flist es)]). rewrite if2_iff. split.
  - intros (u & s2 & A & B). apply user_iff in A; [|exact P1]. destruct (truth u) eqn:T.
    + apply begin_iff in B; [|exact P2]. eapply WM_do; eassumption.
    + destruct B as [-> ->]. eapply WM_skip; [eassumption|]. exact T.
  - intros H. destruct H as [r s v s1 u s2 A T B|r s v s1 A T].
    + exists v, s1. split; [apply user_iff; assumption|]. rewrite T. apply begin_iff; assumption.
    + exists v, s1. split; [apply user_iff; assumption|]. rewrite T. cbn. auto.
Qed.
Lemma not_iff : forall t r e s v s1, ev t r (flist [Ren n_not; e]) s v s1 <-> exists u, ev t r e s u s1 /\ v = if truth u then v_false else v_true.
Proof.
  intros. split.
  - intros H. remember (flist [Ren n_not; e]) as f. destruct H; try discriminate; subst; try (discriminate Heqf); try bad; injection Heqf as ->; try discriminate; eauto.
  - intros (u & H & ->). apply V_not. exact H.
Qed.
Lemma unless_iff : forall h e es t r s v s1, plain e = true -> forallb plain es = true ->
  (ev t r (unless_ (Pair h (Pair e (flist es)))) s v s1 <-> when_means false e es r s v s1).
Proof.
  intros h e es t r s v s1 P1 P2. change (unless_ (Pair h (Pair e (flist es)))) with (flist [Ren n_if; flist [Ren n_not; e]; Pair (Ren n_begin) (flist es)]).
  rewrite if2_iff. assert (F : truth v_false = false) by (apply only_false; reflexivity). split.
  - intros (u & s2 & A & B). rewrite not_iff in A. destruct A as (w & A & ->). apply user_iff in A; [|exact P1]. destruct (truth w) eqn:T.
    + rewrite F in B. destruct B as [-> ->]. eapply WM_skip; [eassumption|]. exact T.
    + rewrite true_true in B. apply begin_iff in B; [|exact P2]. eapply WM_do; eassumption.
  - intros H. destruct H as [r s v s1 u s2 A T B|r s v s1 A T].
    + exists v_true, s1. split; [apply not_iff; exists v; rewrite T; split; [apply user_iff; assumption|reflexivity]|]. rewrite true_true. apply begin_iff; assumption.
    + exists v_false, s1. split; [apply not_iff; exists v; rewrite T; split; [apply user_iff; assumption|reflexivity]|]. rewrite F. auto.
Qed.

(** ** case *)
Notation consequence_means := (consequence_means value state loc user apply).
Notation clauses_mean := (clauses_mean value state loc v_unspecified user apply eqv datum).
Notation case_means := (case_means value state loc v_unspecified user apply eqv datum).
Notation case_form := (case_form els arr).
Lemma eqv_iff : forall t r k key d s v s1, t k = Some (TVal _ _ key) ->
  (ev t r (flist [Ren n_eqv; Ren k; flist [Ren n_quote; d]]) s v s1 <-> v = (if eqv key (datum d) then v_true else v_false) /\ s1 = s).
Proof.
  intros t r k key d s v s1 T. split.
  - intros H. inversion H; subst; try bad.
    match goal with H : ev _ _ (Ren _) _ _ _ |- _ => rewrite (tmp_iff _ _ _ key) in H by exact T; destruct H as [-> ->] end. auto.
  - intros [-> ->]. apply V_eqv. apply V_tmp. exact T.
Qed.
Lemma memv_iff : forall t r k key ds s v s1, t k = Some (TVal _ _ key) ->
  (ev t r (flist [Ren n_memv; Ren k; flist [Ren n_quote; flist ds]]) s v s1 <-> truth v = memv key ds /\ s1 = s).
Proof.
  intros t r k key ds s v s1 T. split.
  - intros H. inversion H; subst; try bad.
    match goal with E : flist _ = flist _ |- _ => apply flist_inj in E; subst end.
    match goal with H : ev _ _ (Ren _) _ _ _ |- _ => rewrite (tmp_iff _ _ _ key) in H by exact T; destruct H as [-> ->] end. auto.
  - intros [H ->]. eapply V_memv; [apply V_tmp; exact T|exact H].
Qed.
Lemma case_body_iff : forall k t r key s v s1, t n_result = Some (TVal _ _ key) -> consequence_ok same k ->
  (ev t r (case_body same (match k with inl es => flist es | inr f => flist [arr; f] end)) s v s1 <-> consequence_means key k r s v s1).
Proof.
  intros [es|f] t r key s v s1 T W.
  - destruct W as [P F]. destruct es as [|e es]; [destruct F|]. cbn in F.
    replace (case_body same (flist (e :: es))) with (Pair (Ren n_begin) (flist (e :: es))) by (unfold case_body; cbn; rewrite F; reflexivity).
    rewrite begin_iff by exact P. split; [apply KM_body|intros H; inv H; assumption].
  - cbn in W. replace (case_body same (flist [arr; f])) with (flist [f; Ren n_result]) by (unfold case_body; cbn; rewrite arr_ok; reflexivity).
    rewrite (call_iff _ _ _ _ key) by assumption. split.
    + intros (w & s2 & A & B). eapply KM_arrow; eassumption.
    + intros H. inv H. eauto.
Qed.
Lemma each_clause_some : forall ds k rest, same n_else (flist ds) = false ->
  each_clause same (Pair (Pair (flist ds) k) rest) =
  flist [Ren n_if; match ds with
                   | [d] => flist [Ren n_eqv; Ren n_result; flist [Ren n_quote; d]]
                   | _ => flist [Ren n_memv; Ren n_result; flist [Ren n_quote; flist ds]]
                   end; case_body same k; each_clause same rest].
Proof. intros ds k rest E. cbn [each_clause car]. rewrite E. destruct ds as [|d [|d2 ds]]; reflexivity. Qed.
Lemma clauses_iff : forall cs t r key s v s1, t n_result = Some (TVal _ _ key) -> cases_ok same cs ->
  (ev t r (each_clause same (flist (List.map case_form cs))) s v s1 <-> clauses_mean key cs r s v s1).
Proof.
  induction cs as [|[ds k] cs IH]; intros t r key s v s1 T W.
  - change (each_clause same (flist (List.map case_form []))) with (Lit l_unspecified). rewrite lit_unspecified. split; [intros [-> ->]; constructor|].
    intros H. remember [] as l. destruct H; try discriminate. auto.
  - destruct W as (W1 & W2 & W3). destruct ds as [ds|].
    + cbn [List.map]. change (flist (case_form (Case (Some ds) k) :: List.map case_form cs)) with
        (Pair (Pair (flist ds) (match k with inl es => flist es | inr f => flist [arr; f] end)) (flist (List.map case_form cs))).
      rewrite each_clause_some by exact W3. rewrite if_iff.
      assert (Test : forall u s2, ev t r (match ds with
                   | [d] => flist [Ren n_eqv; Ren n_result; flist [Ren n_quote; d]]
                   | _ => flist [Ren n_memv; Ren n_result; flist [Ren n_quote; flist ds]]
                   end) s u s2 -> truth u = memv key ds /\ s2 = s).
      { intros u s2 H. destruct ds as [|d [|d2 ds]]; try (apply (memv_iff t r n_result key) in H; [exact H|exact T]).
        apply (eqv_iff t r n_result key) in H; [|exact T]. destruct H as [-> ->]. split; [|reflexivity]. cbn. rewrite orb_false_r.
        destruct (eqv key (datum d)); [exact true_true|apply only_false; reflexivity]. }
      assert (Back : exists u, ev t r (match ds with
                   | [d] => flist [Ren n_eqv; Ren n_result; flist [Ren n_quote; d]]
                   | _ => flist [Ren n_memv; Ren n_result; flist [Ren n_quote; flist ds]]
                   end) s u s /\ truth u = memv key ds).
      { assert (M : exists w, truth w = memv key ds).
        { destruct (memv key ds); [exists v_true; exact true_true|exists v_false; apply only_false; reflexivity]. }
        destruct M as [w M]. destruct ds as [|d [|d2 ds]]; try (exists w; split; [apply (memv_iff t r n_result key); [exact T|auto]|exact M]).
        eexists. split; [apply (eqv_iff t r n_result key); [exact T|split; reflexivity]|]. cbn. rewrite orb_false_r.
        destruct (eqv key (datum d)); [exact true_true|apply only_false; reflexivity]. }
      split.
      * intros (u & s2 & A & B). apply Test in A. destruct A as [A ->]. rewrite A in B. destruct (memv key ds) eqn:M.
        -- apply (case_body_iff k t r key) in B; [|assumption..]. apply KC_match; assumption.
        -- apply (IH t r key) in B; [|assumption..]. apply KC_next; assumption.
      * intros H. destruct Back as (u & A & M). exists u, s. split; [exact A|]. rewrite M. inv H.
        -- match goal with H : memv _ _ = _ |- _ => rewrite H end. apply (case_body_iff k t r key); assumption.
        -- match goal with H : memv _ _ = _ |- _ => rewrite H end. apply (IH t r key); assumption.
    + subst cs. change (flist (List.map case_form [Case None k])) with (Pair (Pair els (match k with inl es => flist es | inr f => flist [arr; f] end)) Nil).
      cbn [each_clause car cdr]. rewrite els_ok. rewrite (case_body_iff k t r key) by assumption. split; [apply KC_else|intros H; inv H; assumption].
Qed.
Lemma case_iff : forall h e cs t r s v s1, plain e = true -> cases_ok same cs ->
  (ev t r (case_ same (Pair h (Pair e (flist (List.map case_form cs))))) s v s1 <-> case_means e cs r s v s1).
Proof.
  intros h e cs t r s v s1 P W.
  change (case_ same (Pair h (Pair e (flist (List.map case_form cs))))) with
    (Pair (Ren n_let) (flist [flist [flist [Ren n_result; e]]; each_clause same (flist (List.map case_form cs))])).
  rewrite macro_iff by reflexivity.
  change (let_ (Pair (Ren n_let) (flist [flist [flist [Ren n_result; e]]; each_clause same (flist (List.map case_form cs))]))) with
    (flist [flist [Ren n_lambda; flist [Ren n_result]; each_clause same (flist (List.map case_form cs))]; e]).
  rewrite let_tmp_iff. unfold DerivedSpec.case_means. split.
  - intros (u & s2 & A & B). apply user_iff in A; [|exact P]. apply (clauses_iff cs _ r u) in B; [eauto|reflexivity|exact W].
  - intros (u & s2 & A & B). exists u, s2. split; [apply user_iff; assumption|]. apply (clauses_iff cs _ r u); [reflexivity|assumption..].
Qed.

(** ** let, let* *)
Notation bind := (bind value state loc alloc).
Notation let_means := (let_means value state loc user user_body alloc).
Notation let_star_means := (let_star_means value state loc user user_body alloc).
Lemma map_id_inj : forall xs ys, flist (List.map Id xs) = flist (List.map Id ys) -> xs = ys.
Proof. induction xs as [|x xs IH]; destruct ys; cbn; intros E; inversion E; [reflexivity|]. f_equal; auto. Qed.
Lemma evl_plain : forall t r b s v s1, plain b = true -> (evl t r b s v s1 <-> user_body b r s v s1).
Proof.
  intros t r b s v s1 P. split; [|apply VL_user; exact P]. intros H. inv H; [assumption|]. cbn in P. rewrite andb_true_r in P. congruence.
Qed.
Lemma evl_one : forall t r e s v s1, plain e = false -> (evl t r (flist [e]) s v s1 <-> ev t r e s v s1).
Proof.
  intros t r e s v s1 P. split; [|apply VL_one; exact P]. intros H. inv H; [|assumption].
  match goal with H : plain _ = true |- _ => cbn in H; rewrite andb_true_r in H; congruence end.
Qed.
Lemma lambda_iff : forall t r xs body inits s v s3, forallb plain inits = true ->
  (ev t r (Pair (Pair (Ren n_lambda) (Pair (flist (List.map Id xs)) body)) (flist inits)) s v s3 <->
   exists vs s1 r' s2, users inits r s vs s1 /\ bind xs vs r s1 = Some (r', s2) /\ evl t r' body s2 v s3).
Proof.
  intros t r xs body inits s v s3 P. split.
  - intros H. inversion H; subst; try bad; try discriminate.
    + destruct xs as [|x [|y xs]]; discriminate.
    + match goal with E : flist (List.map Id _) = _ |- _ => apply map_id_inj in E end.
      match goal with E : flist _ = flist inits |- _ => apply flist_inj in E end. subst. eauto 8.
  - intros (vs & s1 & r' & s2 & A & B & C). eapply V_let; eassumption.
Qed.
Lemma map_car_bindings : forall bs, map car (flist (List.map binding_form bs)) = flist (List.map Id (List.map fst bs)).
Proof. induction bs as [|b bs IH]; [reflexivity|]. cbn. rewrite IH. reflexivity. Qed.
Lemma map_cadr_bindings : forall bs, map cadr (flist (List.map binding_form bs)) = flist (List.map snd bs).
Proof. induction bs as [|b bs IH]; [reflexivity|]. cbn. rewrite IH. reflexivity. Qed.
Lemma let_unfold : forall h bs body, let_ (Pair h (Pair (flist (List.map binding_form bs)) body)) =
  Pair (Pair (Ren n_lambda) (Pair (flist (List.map Id (List.map fst bs))) body)) (flist (List.map snd bs)).
Proof.
  intros h bs body. unfold let_.
  change (cadr (Pair h (Pair (flist (List.map binding_form bs)) body))) with (flist (List.map binding_form bs)).
  change (cddr (Pair h (Pair (flist (List.map binding_form bs)) body))) with body.
  rewrite map_car_bindings, map_cadr_bindings. destruct bs; reflexivity.
Qed.
Lemma let_iff : forall h bs body t r s v s1, forallb plain (List.map snd bs) = true -> plain body = true ->
  (ev t r (let_ (Pair h (Pair (flist (List.map binding_form bs)) body))) s v s1 <-> let_means bs body r s v s1).
Proof.
  intros h bs body t r s v s1 P1 P2. rewrite let_unfold, lambda_iff by exact P1. unfold DerivedSpec.let_means. split.
  - intros (vs & s2 & r' & s3 & A & B & C). apply evl_plain in C; [|exact P2]. eauto 8.
  - intros (vs & s2 & r' & s3 & A & B & C). exists vs, s2, r', s3. split; [exact A|]. split; [exact B|]. apply evl_plain; assumption.
Qed.
Lemma let_star_iff : forall bs body t r s v s1, forallb plain (List.map snd bs) = true -> plain body = true ->
  (ev t r (Pair (Ren n_let_star) (Pair (flist (List.map binding_form bs)) body)) s v s1 <-> let_star_means bs body r s v s1).
Proof.
  induction bs as [|[x e] bs IH]; intros body t r s v s1 P1 P2; rewrite macro_iff by reflexivity.
  - change (let_star (Pair (Ren n_let_star) (Pair (flist (List.map binding_form [])) body))) with (Pair (Ren n_let) (Pair (flist (List.map binding_form [])) body)).
    rewrite macro_iff by reflexivity. rewrite let_iff by assumption. unfold DerivedSpec.let_means. cbn [List.map fst snd]. split.
    + intros (vs & s2 & r' & s3 & A & B & C). inv A. injection B as <- <-. constructor. exact C.
    + intros H. inv H. exists [], s, r, s. split; [constructor|]. split; [reflexivity|assumption].
  - cbn [List.map forallb snd] in P1. apply andb_prop in P1 as [P0 P1].
    change (let_star (Pair (Ren n_let_star) (Pair (flist (List.map binding_form ((x, e) :: bs))) body))) with
      (Pair (Ren n_let) (Pair (flist (List.map binding_form [(x, e)])) (flist [Pair (Ren n_let_star) (Pair (flist (List.map binding_form bs)) body)]))).
    rewrite macro_iff by reflexivity. rewrite let_unfold, lambda_iff by (cbn; rewrite P0; reflexivity). cbn [List.map fst snd]. split.
    + intros (vs & s2 & r' & s3 & A & B & C). inv A. match goal with H : users [] _ _ _ _ |- _ => inv H end.
      cbn [DerivedSpec.bind] in B. destruct (alloc s2 v0) as [l sx] eqn:E. injection B as <- <-. apply evl_one in C; [|reflexivity]. apply IH in C; [|assumption..].
      eapply LM_bind; eassumption.
    + intros H. inv H. eexists [u], s2, _, s3. split; [econstructor; [constructor|eassumption]|]. cbn [DerivedSpec.bind].
      match goal with H : alloc _ _ = _ |- _ => rewrite H end. split; [reflexivity|]. apply evl_one; [reflexivity|]. apply IH; assumption.
Qed.

(** ** named let *)
Notation named_let_means := (named_let_means value state loc user apply alloc assign closure undefined).
Notation extend := (extend loc).
Lemma letrec_iff : forall t r f formals body inits s v s4, forallb plain inits = true ->
  (ev t r (flist [Ren n_letrec; flist [flist [Id f; Pair (Ren n_lambda) (Pair formals body)]]; Pair (Id f) (flist inits)]) s v s4 <->
   exists l s1 w s2 vs s3 u, alloc s undefined = (l, s1) /\ closure formals body (extend r f l) s1 = (w, s2) /\
    users inits (extend r f l) (assign s2 l w) vs s3 /\ content s3 l = Some u /\ apply u vs s3 v s4).
Proof.
  intros t r f formals body inits s v s4 P. split.
  - intros H. inversion H; subst; try bad; try discriminate.
    match goal with E : flist _ = flist inits |- _ => apply flist_inj in E; subst end. eauto 12.
  - intros (l & s1 & w & s2 & vs & s3 & u & A & B & C & D & E). eapply V_letrec; eassumption.
Qed.
Lemma named_let_unfold : forall h f bs body, let_ (Pair h (Pair (Id f) (Pair (flist (List.map binding_form bs)) body))) =
  flist [Ren n_letrec; flist [flist [Id f; Pair (Ren n_lambda) (Pair (flist (List.map (fun b => Id (fst b)) bs)) body)]]; Pair (Id f) (flist (List.map snd bs))].
Proof.
  intros h f bs body. unfold let_.
  change (caddr (Pair h (Pair (Id f) (Pair (flist (List.map binding_form bs)) body)))) with (flist (List.map binding_form bs)).
  change (cdddr (Pair h (Pair (Id f) (Pair (flist (List.map binding_form bs)) body)))) with body.
  rewrite map_car_bindings, map_cadr_bindings, map_map. reflexivity.
Qed.
Lemma named_let_iff : forall h f bs body t r s v s4, forallb plain (List.map snd bs) = true ->
  (forall l st vs st', users (List.map snd bs) (extend r f l) st vs st' <-> users (List.map snd bs) r st vs st') ->
  (forall s l s1 s2 w vs s3, alloc s undefined = (l, s1) -> users (List.map snd bs) r (assign s2 l w) vs s3 -> content s3 l = Some w) ->
  (ev t r (let_ (Pair h (Pair (Id f) (Pair (flist (List.map binding_form bs)) body)))) s v s4 <-> named_let_means f bs body r s v s4).
Proof.
  intros h f bs body t r s v s4 P I K. rewrite named_let_unfold, letrec_iff by exact P. unfold DerivedSpec.named_let_means. split.
  - intros (l & s1 & w & s2 & vs & s3 & u & A & B & C & D & E). apply I in C. pose proof (K _ _ _ _ _ _ _ A C) as F. rewrite F in D. injection D as ->. eauto 12.
  - intros (l & s1 & w & s2 & vs & s3 & A & B & C & E). exists l, s1, w, s2, vs, s3, w. repeat split; try assumption; [apply I; exact C|eapply K; eassumption].
Qed.

(** ** do *)
Notation do_loop := (do_loop value state loc truth user alloc).
Notation do_means := (do_means value state loc truth user alloc).
Notation run := (run value state loc user).
Section Do.
Variables (bs : list do_var) (test : form) (result commands : list form).
Hypothesis plain_init : forallb plain (List.map init bs) = true.
Hypothesis plain_next : forallb plain (List.map next_of bs) = true.
Hypothesis plain_test : plain test = true.
Hypothesis plain_result : forallb plain result = true.
Hypothesis plain_commands : forallb plain commands = true.
Definition call := Pair (Ren n_rec) (flist (List.map next_of bs)).
Definition body := Pair (Ren n_begin) (flist (commands ++ [call])).
Definition ite := flist [Ren n_if; Ren n_it; Ren n_it; body].
Definition lam := flist [flist [Ren n_lambda; flist [Ren n_it]; ite]; test].
Definition loop :=
  match result with
  | [] => flist [Ren n_let; flist [flist [Ren n_it; test]]; ite]
  | _ => flist [Ren n_if; test; Pair (Ren n_begin) (flist result); body]
  end.
Lemma append_flist : forall l m, append (flist l) (flist m) = flist (l ++ m).
Proof. induction l; intros m; cbn; [reflexivity|]. rewrite IHl. reflexivity. Qed.
Lemma map_flist : forall f l, map f (flist l) = flist (List.map f l).
Proof. induction l; cbn; congruence. Qed.
Lemma do_unfold : forall h, do_ (Pair h (Pair (flist (List.map do_form bs)) (Pair (Pair test (flist result)) (flist commands)))) =
  Pair (Ren n_let) (Pair (Ren n_rec) (Pair (flist (List.map binding_form (List.map (fun b => (variable b, init b)) bs))) (flist [loop]))).
Proof.
  intros h. unfold do_.
  change (cadr (Pair h (Pair (flist (List.map do_form bs)) (Pair (Pair test (flist result)) (flist commands))))) with (flist (List.map do_form bs)).
  change (cdddr (Pair h (Pair (flist (List.map do_form bs)) (Pair (Pair test (flist result)) (flist commands))))) with (flist commands).
  change (caaddr (Pair h (Pair (flist (List.map do_form bs)) (Pair (Pair test (flist result)) (flist commands))))) with test.
  change (cdaddr (Pair h (Pair (flist (List.map do_form bs)) (Pair (Pair test (flist result)) (flist commands))))) with (flist result).
  rewrite !map_flist, append_flist, !map_map.
  replace (List.map (fun x : do_var => if is_pair (cddr (do_form x)) then caddr (do_form x) else car (do_form x)) bs) with (List.map next_of bs).
  2: { apply map_ext. intros [x i [e|]]; reflexivity. }
  replace (List.map (fun x : do_var => flist [car (do_form x); cadr (do_form x)]) bs) with (List.map (fun x => binding_form (variable x, init x)) bs).
  2: { apply map_ext. intros [x i [e|]]; reflexivity. }
  unfold loop, ite, body, call. destruct result; reflexivity.
Qed.
Variables (t0 : tmps) (r0 : env).
Definition L := TLoop value loc (List.map variable bs) loop r0 t0.
Definition again r s v s' := exists vs s1 r' s2, users (List.map next_of bs) r s vs s1 /\ bind (List.map variable bs) vs r0 s1 = Some (r', s2) /\ do_loop bs test result commands r0 r' s2 v s'.
Lemma loop_cases : (result = [] /\ loop = flist [Ren n_let; flist [flist [Ren n_it; test]]; ite]) \/
  (result <> [] /\ loop = flist [Ren n_if; test; Pair (Ren n_begin) (flist result); body]).
Proof. unfold loop. destruct result; [left|right]; split; (reflexivity || discriminate). Qed.
Lemma loop_forward :
  (forall t r f s v s', ev t r f s v s' -> t n_rec = Some L ->
    (f = loop -> do_loop bs test result commands r0 r s v s') /\
    (f = call -> again r s v s') /\
    (f = body -> exists s1, run commands r s s1 /\ again r s1 v s') /\
    (f = ite -> result = [] -> forall u, t n_it = Some (TVal _ _ u) -> if truth u then v = u /\ s' = s else exists s1, run commands r s s1 /\ again r s1 v s') /\
    (f = lam -> result = [] -> do_loop bs test result commands r0 r s v s')) /\
  (forall t r es s v s', evb t r es s v s' -> t n_rec = Some L -> forall cs, forallb plain cs = true -> es = cs ++ [call] -> exists s1, run cs r s s1 /\ again r s1 v s') /\
  (forall t r b s v s', evl t r b s v s' -> True).
Proof.
  apply ev_all; try exact (fun _ _ _ _ _ _ _ _ => I).
  all: try (intros; repeat split; intros; exfalso; destruct loop_cases as [[? LE]|[? LE]]; rewrite ?LE in *; try discriminate; fail).
  all: try (intros; exact I).
  - (* user *) intros t r f s v s1 P U T. repeat split; intros; subst; exfalso;
      try (destruct loop_cases as [[? LE]|[? LE]]; rewrite ?LE in P); discriminate P.
  - (* if, true *) intros t r a b rest s u s1 v s2 HA IA TU HB IB T. repeat split; intros EQ; try discriminate.
    + destruct loop_cases as [[? LE]|[NE LE]]; rewrite LE in EQ; [discriminate|]. injection EQ as -> -> ->.
      apply user_iff in HA; [|exact plain_test]. apply begin_iff in HB; [|exact plain_result]. eapply DL_value; eassumption.
    + intros RE w TW. injection EQ as -> -> ->. apply (tmp_iff _ _ _ w) in HA; [|exact TW]. destruct HA as [-> ->]. rewrite TU.
      apply (tmp_iff _ _ _ w) in HB; [|exact TW]. exact HB.
  - (* if, false *) intros t r a b c s u s1 v s2 HA IA TU HC IC T. repeat split; intros EQ; try discriminate.
    + destruct loop_cases as [[? LE]|[NE LE]]; rewrite LE in EQ; [discriminate|]. injection EQ as -> -> ->.
      apply user_iff in HA; [|exact plain_test]. destruct (IC T) as (_ & _ & IB & _). destruct (IB eq_refl) as (s3 & R & vs & s4 & r' & s5 & A & B & C).
      eapply DL_next; eassumption.
    + intros RE w TW. injection EQ as -> -> ->. apply (tmp_iff _ _ _ w) in HA; [|exact TW]. destruct HA as [-> ->]. rewrite TU.
      destruct (IC T) as (_ & _ & IB & _). apply IB. reflexivity.
  - (* begin *) intros t r es s v s1 HB IB T. repeat split; intros EQ; try discriminate.
    + destruct loop_cases as [[? LE]|[NE LE]]; rewrite LE in EQ; discriminate.
    + injection EQ as EQ. apply flist_inj in EQ. subst es. apply (IB T commands plain_commands eq_refl).
  - (* call of the user *) intros t r f k s v s1 w s2 TK P U u A T. repeat split; intros EQ; exfalso; try (injection EQ; intros; subst; discriminate).
    destruct loop_cases as [[? LE]|[NE LE]]; rewrite LE in EQ; injection EQ; intros; subst; discriminate.
  - (* let of a transformer *) intros t r k e ini s u s1 v s2 HI II HE IE T. repeat split; intros EQ; try discriminate.
    + destruct loop_cases as [[? LE]|[NE LE]]; rewrite LE in EQ; discriminate.
    + intros RE. injection EQ as -> -> ->. apply user_iff in HI; [|exact plain_test].
      destruct (IE T) as (_ & _ & _ & IT & _). specialize (IT eq_refl RE u eq_refl). destruct (truth u) eqn:TU.
      * destruct IT as [-> ->]. eapply DL_none; eassumption.
      * destruct IT as (s3 & R & vs & s4 & r' & s5 & A & B & C). eapply DL_next; eassumption.
  - (* let *) intros t r xs b inits s vs s1 r' s2 v s3 U P B HL _ T. repeat split; intros EQ; try discriminate.
    + destruct loop_cases as [[? LE]|[NE LE]]; rewrite LE in EQ; discriminate.
    + exfalso. injection EQ as E. destruct xs as [|x [|y xs]]; discriminate.
  - (* again *) intros t r xs e r1 t1 args s vs s1 r' s2 v s3 TL U P B HE IE T. repeat split; intros EQ; try discriminate.
    + destruct loop_cases as [[? LE]|[NE LE]]; rewrite LE in EQ; discriminate.
    + injection EQ as EQ. apply flist_inj in EQ. subst args. rewrite TL in T. injection T as -> -> -> ->.
      exists vs, s1, r', s2. split; [exact U|]. split; [exact B|]. destruct (IE eq_refl) as (IL & _). apply IL. reflexivity.
  - (* macro *) intros t r k m rest s v s1 M HE IE T. repeat split; intros EQ; try discriminate EQ; try (injection EQ as -> ->; discriminate).
    destruct loop_cases as [[RE LE]|[NE LE]]; rewrite LE in EQ; injection EQ as -> ->; [|discriminate]. injection M as <-.
    destruct (IE T) as (_ & _ & _ & _ & IL). apply IL; [reflexivity|exact RE].
  - (* last *) intros t r e s v s1 HE IE T cs P EQ. destruct cs as [|c [|c2 cs]]; try discriminate. injection EQ as ->.
    exists s. split; [constructor|]. apply IE; [exact T|reflexivity].
  - (* more *) intros t r e es s u s1 v s2 HE IE HB IB N T cs P EQ. destruct cs as [|c cs]; [injection EQ as -> ->; congruence|]. injection EQ as -> ->.
    cbn in P. apply andb_prop in P as [P1 P2]. destruct (IB T cs P2 eq_refl) as (s3 & R & A). exists s3. split; [|exact A].
    econstructor; [|exact R]. eapply user_iff; eassumption.
Qed.
Lemma call_backward : forall t r s v s', t n_rec = Some L -> 
  (forall vs s1 r' s2, users (List.map next_of bs) r s vs s1 -> bind (List.map variable bs) vs r0 s1 = Some (r', s2) -> ev (set t0 n_rec L) r' loop s2 v s' -> ev t r call s v s').
Proof. intros t r s v s' T vs s1 r' s2 U B H. eapply V_again; eassumption. Qed.
Lemma body_backward : forall cs t r s s1 v s', forallb plain cs = true -> run cs r s s1 -> ev t r call s1 v s' -> evb t r (cs ++ [call]) s v s'.
Proof.
  induction cs as [|c cs IH]; intros t r s s1 v s' P R H; inv R; [constructor; exact H|]. cbn in P. apply andb_prop in P as [P1 P2].
  cbn. econstructor; [apply V_user; eassumption|eapply IH; eassumption|destruct cs; discriminate].
Qed.
Lemma loop_backward : forall r s v s', do_loop bs test result commands r0 r s v s' -> forall t, t n_rec = Some L -> ev t r loop s v s'.
Proof.
  intros r s v s' H. induction H as [r s v s1 u s2 U T N SQ|r s v s1 U T E|r s v s1 s2 vs s3 r' s4 u s5 U T R US B H IH]; intros t TL.
  - destruct loop_cases as [[RE LE]|[NE LE]]; [congruence|]. rewrite LE. rewrite if_iff. exists v, s1. split; [apply V_user; assumption|]. rewrite T. apply begin_iff; assumption.
  - destruct loop_cases as [[RE LE]|[NE LE]]; [|congruence]. rewrite LE. eapply V_macro; [reflexivity|].
    change (let_ (Pair (Ren n_let) (flist [flist [flist [Ren n_it; test]]; ite]))) with lam. apply let_tmp_iff. exists v, s1. split; [apply V_user; assumption|].
    unfold ite. rewrite if_iff. exists v, s1. split; [apply V_tmp; reflexivity|]. rewrite T. apply V_tmp. reflexivity.
  - assert (Next : forall t, t n_rec = Some L -> ev t r body s1 u s5).
    { intros t' T'. apply begin_evb. eapply body_backward; [exact plain_commands|exact R|]. eapply call_backward; try eassumption. apply IH. reflexivity. }
    destruct loop_cases as [[RE LE]|[NE LE]]; rewrite LE.
    + eapply V_macro; [reflexivity|]. change (let_ (Pair (Ren n_let) (flist [flist [flist [Ren n_it; test]]; ite]))) with lam. apply let_tmp_iff. exists v, s1.
      split; [apply V_user; assumption|]. unfold ite. rewrite if_iff. exists v, s1. split; [apply V_tmp; reflexivity|]. rewrite T. apply Next. exact TL.
    + rewrite if_iff. exists v, s1. split; [apply V_user; assumption|]. rewrite T. apply Next. exact TL.
Qed.
End Do.
Lemma do_iff : forall h bs test result commands t r s v s', forallb plain (List.map init bs) = true -> forallb plain (List.map next_of bs) = true ->
  plain test = true -> forallb plain result = true -> forallb plain commands = true ->
  (ev t r (do_ (Pair h (Pair (flist (List.map do_form bs)) (Pair (Pair test (flist result)) (flist commands))))) s v s' <-> do_means bs test result commands r s v s').
Proof.
  intros h bs test result commands t r s v s' P1 P2 P3 P4 P5. rewrite do_unfold by assumption. rewrite macro_iff by reflexivity.
  set (lp := loop bs test result commands).
  assert (E : let_ (Pair (Ren n_let) (Pair (Ren n_rec) (Pair (flist (List.map binding_form (List.map (fun b => (variable b, init b)) bs))) (flist [lp])))) =
    flist [Ren n_letrec; flist [flist [Ren n_rec; flist [Ren n_lambda; flist (List.map Id (List.map variable bs)); lp]]]; Pair (Ren n_rec) (flist (List.map init bs))]).
  { unfold let_.
    change (caddr (Pair (Ren n_let) (Pair (Ren n_rec) (Pair (flist (List.map binding_form (List.map (fun b => (variable b, init b)) bs))) (flist [lp]))))) with
      (flist (List.map binding_form (List.map (fun b => (variable b, init b)) bs))).
    rewrite map_car_bindings, map_cadr_bindings, !map_map. reflexivity. }
  rewrite E. clear E. unfold DerivedSpec.do_means. split.
  - intros H. inversion H; subst; try bad; try discriminate.
    match goal with E : flist (List.map Id _) = _ |- _ => apply map_id_inj in E; subst end.
    match goal with H : ev _ _ (Pair (Ren n_rec) _) _ _ _ |- _ => rename H into HC end.
    inversion HC; subst; try bad; try discriminate.
    match goal with E : flist _ = flist _ |- _ => apply flist_inj in E; subst end.
    match goal with E : set _ _ _ _ = Some _ |- _ => injection E; intros; subst end.
    exists vs, s1, r', s2. split; [assumption|]. split; [assumption|].
    match goal with H : ev (set ?tt _ _) r' _ s2 v s' |- do_loop _ _ _ _ ?rr _ _ _ _ => exact (proj1 (proj1 (loop_forward bs test result commands P3 P4 P5 tt rr) _ _ _ _ _ _ H eq_refl) eq_refl) end.
  - intros (vs & s1 & r' & s2 & A & B & C). apply V_loop. eapply V_again; [reflexivity|exact A|exact P1|exact B|].
    apply (loop_backward bs test result commands P2 P3 P4 P5 t r); [exact C|reflexivity].
Qed.
End Proofs.

(** ** Quasiquotation *)
Section Quasi.
Variable same : name -> form -> bool.
Variable symbol : name -> nat.
Variable user : form -> form.
Hypothesis spelled : forall k a, k = n_unquote \/ k = n_unquote_splicing \/ k = n_quasiquote -> (same k a = true <-> a = Id (symbol k)).
Hypothesis distinct : symbol n_unquote <> symbol n_unquote_splicing /\ symbol n_unquote <> symbol n_quasiquote /\ symbol n_unquote_splicing <> symbol n_quasiquote.
Hypothesis self : forall c, user (Const c) = Const c.
Notation expand := (expand_quasi same symbol).
Notation builds := (builds user).
Notation quasi := (quasi same user).
Notation elements := (elements same user).
Scheme quasi_mut := Minimality for DerivedSpec.quasi Sort Prop with elements_mut := Minimality for DerivedSpec.elements Sort Prop.
Combined Scheme quasi_all from quasi_mut, elements_mut.

Lemma special_no : forall a, special same a = false -> same n_unquote a = false /\ same n_unquote_splicing a = false /\ same n_quasiquote a = false.
Proof. intros a. unfold special. intros H. apply orb_false_elim in H as [H C]. apply orb_false_elim in H as [A B]. auto. Qed.
Lemma is_unquote : forall a, same n_unquote a = true -> a = Id (symbol n_unquote) /\ same n_unquote_splicing a = false /\ same n_quasiquote a = false.
Proof.
  intros a H. apply spelled in H; [|auto]. subst. split; [reflexivity|]. destruct distinct as (A & B & C).
  split; apply not_true_is_false; intros E; apply spelled in E; auto; injection E; auto.
Qed.
Lemma is_splicing : forall a, same n_unquote_splicing a = true -> a = Id (symbol n_unquote_splicing) /\ same n_unquote a = false /\ same n_quasiquote a = false.
Proof.
  intros a H. apply spelled in H; [|auto]. subst. split; [reflexivity|]. destruct distinct as (A & B & C).
  split; apply not_true_is_false; intros E; apply spelled in E; auto; injection E; auto.
Qed.
Lemma is_quasi : forall a, same n_quasiquote a = true -> a = Id (symbol n_quasiquote) /\ same n_unquote a = false /\ same n_unquote_splicing a = false.
Proof.
  intros a H. apply spelled in H; [|auto]. subst. split; [reflexivity|]. destruct distinct as (A & B & C).
  split; apply not_true_is_false; intros E; apply spelled in E; auto; injection E; auto.
Qed.
Lemma pair_unspecial : forall k a b, k = n_unquote \/ k = n_unquote_splicing \/ k = n_quasiquote -> same k (Pair a b) = false.
Proof. intros k a b K. apply not_true_is_false. intros H. apply spelled in H; [discriminate|exact K]. Qed.

Lemma builds_user : forall e z, plain e = true -> (builds e z <-> z = user e).
Proof.
  intros e z P. split; [|intros ->; constructor; exact P]. intros H. inversion H; subst; try reflexivity; discriminate P.
Qed.
Lemma builds_quote : forall d z, builds (flist [Ren n_quote; d]) z <-> z = d.
Proof. intros d z. split; [intros H; inversion H; subst; [discriminate|reflexivity]|intros ->; constructor]. Qed.
Lemma builds_list : forall a b z, builds (flist [Ren n_list; a; b]) z <-> exists x y, builds a x /\ builds b y /\ z = flist [x; y].
Proof. intros a b z. split; [intros H; inversion H; subst; [discriminate|eauto]|intros (x & y & A & B & ->); constructor; assumption]. Qed.
Lemma builds_cons : forall a b z, builds (flist [Ren n_cons; a; b]) z <-> exists x y, builds a x /\ builds b y /\ z = Pair x y.
Proof. intros a b z. split; [intros H; inversion H; subst; [discriminate|eauto]|intros (x & y & A & B & ->); constructor; assumption]. Qed.
Lemma builds_append : forall a b z, builds (flist [Ren n_append; a; b]) z <-> exists x y l, builds a x /\ elements_of x = Some l /\ builds b y /\ z = append x y.
Proof. intros a b z. split; [intros H; inversion H; subst; [discriminate|eauto 8]|intros (x & y & l & A & B & C & ->); econstructor; eassumption]. Qed.
Lemma builds_vector : forall a z, builds (flist [Ren n_list_to_vector; a]) z <-> exists x l, builds a x /\ elements_of x = Some l /\ z = Vec x.
Proof. intros a z. split; [intros H; inversion H; subst; [discriminate|eauto]|intros (x & l & A & B & ->); econstructor; eassumption]. Qed.
Lemma elements_of_flist : forall l, elements_of (flist l) = Some l.
Proof. induction l; cbn; [reflexivity|]. rewrite IHl. reflexivity. Qed.

Lemma expand_unquote_inner : forall a e d, same n_unquote a = true -> expand (flist [a; e]) (S d) = flist [Ren n_list; flist [Ren n_quote; a]; expand e d].
Proof. intros a e d H. destruct (is_unquote a H) as (-> & _ & _). cbn. rewrite H. reflexivity. Qed.
Lemma expand_splicing_inner : forall a e d, same n_unquote_splicing a = true -> expand (flist [a; e]) (S d) = flist [Ren n_list; flist [Ren n_quote; a]; expand e d].
Proof. intros a e d H. destruct (is_splicing a H) as (-> & A & _). cbn. rewrite A, H. reflexivity. Qed.
Lemma expand_quasiquote : forall a e d, same n_quasiquote a = true -> expand (flist [a; e]) d = flist [Ren n_list; flist [Ren n_quote; a]; expand e (S d)].
Proof. intros a e d H. destruct (is_quasi a H) as (-> & A & B). cbn. rewrite A, B, H. reflexivity. Qed.
Lemma expand_splice : forall a e rest, same n_unquote_splicing a = true ->
  expand (Pair (flist [a; e]) rest) 0 = if is_null rest then e else flist [Ren n_append; e; expand rest 0].
Proof.
  intros a e rest H. cbn [expand_quasi flist]. rewrite !pair_unspecial by auto. cbn [Nat.eqb is_pair car]. rewrite H. cbn [andb]. reflexivity.
Qed.
Lemma expand_pair : forall a b d, special same a = false -> (d = 0 -> splice same a = false) -> expand (Pair a b) d = flist [Ren n_cons; expand a d; expand b d].
Proof.
  intros a b d S N. destruct (special_no a S) as (A & B & C). cbn [expand_quasi]. rewrite A, B, C.
  replace ((d =? 0) && is_pair a && same n_unquote_splicing (car a)) with false; [reflexivity|]. destruct d; [|reflexivity]. symmetry. exact (N eq_refl).
Qed.
Lemma expand_vec : forall l d, expand (Vec l) d = flist [Ren n_list_to_vector; expand l d].
Proof. reflexivity. Qed.
Lemma append_flist_app : forall l m, append (flist l) (flist m) = flist (l ++ m).
Proof. induction l; intros m; cbn; [reflexivity|]. rewrite IHl. reflexivity. Qed.
Lemma append_nil : forall l, append (flist l) Nil = flist l.
Proof. induction l; cbn; [reflexivity|]. rewrite IHl. reflexivity. Qed.

Lemma quasi_builds :
  (forall d x y, quasi d x y -> forall z, builds (expand x d) z <-> z = y) /\
  (forall d l vs, elements d l vs -> forall z, builds (expand (flist l) d) z <-> z = flist vs).
Proof.
  apply quasi_all.
  - intros d z. apply builds_quote.
  - intros d c z. cbn [expand_quasi]. rewrite builds_user by reflexivity. rewrite self. reflexivity.
  - intros d x _ z. apply builds_quote.
  - intros a e H P z. cbn [expand_quasi flist]. rewrite H. apply builds_user. exact P.
  - intros d a e y H _ IH z. rewrite (expand_unquote_inner a e d H), builds_list. split.
    + intros (p & q & A & B & ->). rewrite builds_quote in A. rewrite IH in B. subst. reflexivity.
    + intros ->. exists a, y. rewrite builds_quote, IH. auto.
  - intros d a e y H _ IH z. rewrite (expand_splicing_inner a e d H), builds_list. split.
    + intros (p & q & A & B & ->). rewrite builds_quote in A. rewrite IH in B. subst. reflexivity.
    + intros ->. exists a, y. rewrite builds_quote, IH. auto.
  - intros d a e y H _ IH z. rewrite (expand_quasiquote a e d H), builds_list. split.
    + intros (p & q & A & B & ->). rewrite builds_quote in A. rewrite IH in B. subst. reflexivity.
    + intros ->. exists a, y. rewrite builds_quote, IH. auto.
  - intros a e vs rest y H P U Q IH z. rewrite (expand_splice a e rest H). destruct (is_null rest) eqn:N.
    + destruct rest; try discriminate. inversion Q; subst. rewrite append_nil, builds_user, U by exact P. reflexivity.
    + rewrite builds_append. split.
      * intros (p & q & l & A & B & C & ->). apply builds_user in A; [|exact P]. rewrite IH in C. congruence.
      * intros ->. exists (user e), y, vs. rewrite U at 2. rewrite elements_of_flist, IH, builds_user by exact P. rewrite U. auto.
  - intros d a b y z S N _ IA _ IB w. rewrite (expand_pair a b d S N), builds_cons. split.
    + intros (p & q & A & B & ->). rewrite IA in A. rewrite IB in B. congruence.
    + intros ->. exists y, z. rewrite IA, IB. auto.
  - intros d l vs _ IH z. rewrite expand_vec, builds_vector. split.
    + intros (p & m & A & B & ->). rewrite IH in A. congruence.
    + intros ->. exists (flist vs), vs. rewrite IH, elements_of_flist. auto.
  - intros d z. apply builds_quote.
  - intros a e vs l ws H P U Q IH z. change (flist (flist [a; e] :: l)) with (Pair (flist [a; e]) (flist l)). rewrite (expand_splice a e _ H).
    destruct l as [|x l].
    + inversion Q; subst. rewrite app_nil_r. cbn [is_null flist]. rewrite builds_user, U by exact P. reflexivity.
    + change (is_null (flist (x :: l))) with false. cbv iota. rewrite builds_append. split.
      * intros (p & q & m & A & B & C & ->). apply builds_user in A; [|exact P]. rewrite IH in C. subst. rewrite U. apply append_flist_app.
      * intros ->. exists (user e), (flist ws), vs. rewrite U at 2. rewrite elements_of_flist, IH, builds_user by exact P. rewrite U, append_flist_app. auto.
  - intros d x y l ws S N _ IX _ IL z. change (flist (x :: l)) with (Pair x (flist l)). rewrite (expand_pair x _ d S N), builds_cons. split.
    + intros (p & q & A & B & ->). rewrite IX in A. rewrite IL in B. subst. reflexivity.
    + intros ->. exists y, (flist ws). rewrite IX, IL. auto.
Qed.
End Quasi.
