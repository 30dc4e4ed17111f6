(** Proofs: a text with labels describes one object only, up to copies (ReadSharedSpec.v), and
    the texts of write/ss are such that read/ss can read them. *)
From Coq Require Import ZArith List Bool Arith Lia.
From Verif Require Import Lists Labels LabelsSpec Tells LabelsShared ReadShared ReadSharedSpec ReadSharedProofs.
Import ListNotations.

(** ** Texts can be taken apart in one way only *)
Definition begins (t : token) : Prop := t <> TClose /\ t <> TDot.
Lemma shows_begins h E ts v E' : shows h E ts v E' -> exists t ts', ts = t :: ts' /\ begins t.
Proof. intros S. destruct S; do 2 eexists; (split; [reflexivity|split; discriminate]). Qed.

Lemma unique_text h h' :
  (forall E ts v E', shows h E ts v E' -> forall F ts' w F' us us', shows h' F ts' w F' -> ts ++ us = ts' ++ us' -> ts = ts' /\ us = us') /\
  (forall E ts v E', shows_rest h E ts v E' -> forall F ts' w F' us us', shows_rest h' F ts' w F' -> ts ++ us = ts' ++ us' -> ts = ts' /\ us = us') /\
  (forall E ts vs E', shows_all h E ts vs E' -> forall F ts' ws F' us us', shows_all h' F ts' ws F' -> ts ++ TClose :: us = ts' ++ TClose :: us' -> ts = ts' /\ us = us').
Proof.
  apply shows_ind3.
  - intros E v A F ts' w F' us us' S Eq. inversion S; subst; cbn in Eq; try discriminate Eq. injection Eq as -> ->. auto.
  - intros E F ts' w F' us us' S Eq. inversion S; subst; cbn in Eq; try discriminate Eq; injection Eq as Eq; [subst; auto|].
    exfalso. match goal with H : shows h' _ ?x _ _ |- _ => destruct (shows_begins _ _ _ _ _ H) as (t & ts'' & -> & B & _) end. cbn in Eq. congruence.
  - intros E n p St F ts' w F' us us' S Eq. inversion S; subst; cbn in Eq; try discriminate Eq. injection Eq as -> ->. auto.
  - intros E n p ts E' Fr NU S1 IH F ts' w F' us us' S Eq. inversion S; subst; cbn in Eq; try discriminate Eq. injection Eq as -> Eq.
    match goal with H : shows h' _ ?x _ _ |- _ => destruct (IH _ _ _ _ _ _ H Eq) as [-> ->] end. auto.
  - intros E p a d ts us E1 E2 N S1 IH1 S2 IH2 F ts' w F' vs vs' S Eq. inversion S; subst; cbn in Eq; try discriminate Eq; injection Eq as Eq.
    + exfalso. destruct (shows_begins _ _ _ _ _ S1) as (t & ts'' & -> & B & _). cbn in Eq. congruence.
    + rewrite <- !app_assoc in Eq. destruct (IH1 _ _ _ _ _ _ H0 Eq) as [-> Eq']. destruct (IH2 _ _ _ _ _ _ H1 Eq') as [-> ->]. auto.
  - intros E p vs ts E' N S1 IH F ts' w F' us us' S Eq. inversion S; subst; cbn in Eq; try discriminate Eq. injection Eq as Eq. rewrite <- !app_assoc in Eq. cbn in Eq.
    destruct (IH _ _ _ _ _ _ H0 Eq) as [-> ->]. auto.
  - intros E F ts' w F' us us' S Eq. inversion S; subst; cbn in Eq; try discriminate Eq; [injection Eq as ->; auto|].
    exfalso. destruct (shows_begins _ _ _ _ _ H0) as (t & ts'' & -> & B & _). cbn in Eq. congruence.
  - intros E ts v E' S1 IH F ts' w F' us us' S Eq. inversion S; subst; cbn in Eq; try discriminate Eq.
    + injection Eq as Eq. rewrite <- !app_assoc in Eq. destruct (IH _ _ _ _ _ _ H Eq) as [-> Eq']. injection Eq' as ->. auto.
    + exfalso. destruct (shows_begins _ _ _ _ _ H0) as (t & ts'' & -> & _ & B). cbn in Eq. congruence.
  - intros E p a d ts us E1 E2 N S1 IH1 S2 IH2 F ts' w F' vs vs' S Eq. destruct (shows_begins _ _ _ _ _ S1) as (t & ts1 & Et & B & B'). inversion S; subst; cbn in Eq.
    + congruence.
    + congruence.
    + rewrite <- !app_assoc in Eq. change (t :: ts1 ++ us ++ vs) with ((t :: ts1) ++ us ++ vs) in Eq. rewrite app_comm_cons in Eq || idtac.
      destruct (IH1 _ _ _ _ (us ++ vs) (us0 ++ vs') H0 ltac:(cbn; exact Eq)) as [-> Eq']. destruct (IH2 _ _ _ _ _ _ H1 Eq') as [-> ->]. auto.
  - intros E F ts' ws F' us us' S Eq. inversion S; subst; cbn in Eq; [injection Eq as ->; auto|].
    exfalso. destruct (shows_begins _ _ _ _ _ H) as (t & ts'' & -> & B & _). cbn in Eq. congruence.
  - intros E ts v E1 us vs E2 S1 IH1 S2 IH2 F ts' ws F' xs xs' S Eq. destruct (shows_begins _ _ _ _ _ S1) as (t & ts1 & Et & B & B'). inversion S; subst; cbn in Eq.
    + congruence.
    + rewrite <- !app_assoc in Eq. destruct (IH1 _ _ _ _ (us ++ TClose :: xs) (us0 ++ TClose :: xs') H ltac:(cbn; exact Eq)) as [-> Eq']. destruct (IH2 _ _ _ _ _ _ H0 Eq') as [-> ->]. auto.
Qed.

(** ** Two objects that are described by the same text, and the objects described part by part *)
Definition pairing := list (nat * nat).
Inductive both (h h' : store) : scope -> scope -> list token -> val -> val -> scope -> scope -> pairing -> Prop :=
| B_atom : forall E F v, atomic h v -> both h h' E F [TAtom v] v v E F []
| B_nil : forall E F, both h h' E F [TOpen; TClose] Nil Nil E F []
| B_use : forall E F n p q, stands n p E -> stands n q F -> both h h' E F [TUse n] (Ptr p) (Ptr q) E F []
| B_decl : forall E F n p q ts E' F' Z, both h h' ((n, p) :: E) ((n, q) :: F) ts (Ptr p) (Ptr q) E' F' Z ->
    both h h' E F (TDecl n :: ts) (Ptr p) (Ptr q) E' F' Z
| B_pair : forall E F p q a d b e ts us E1 F1 E2 F2 Z1 Z2, nth_error h p = Some (Cons a d) -> nth_error h' q = Some (Cons b e) ->
    both h h' E F ts a b E1 F1 Z1 -> both_rest h h' E1 F1 us d e E2 F2 Z2 -> after [] ts = [] -> both h h' E F (TOpen :: ts ++ us) (Ptr p) (Ptr q) E2 F2 ((p, q) :: Z1 ++ Z2)
| B_vector : forall E F p q vs ws ts E' F' Z, nth_error h p = Some (Vector vs) -> nth_error h' q = Some (Vector ws) ->
    both_all h h' E F ts vs ws E' F' Z -> both h h' E F (TVec :: ts ++ [TClose]) (Ptr p) (Ptr q) E' F' (own vs (p, q) ++ Z)
with both_rest (h h' : store) : scope -> scope -> list token -> val -> val -> scope -> scope -> pairing -> Prop :=
| BR_nil : forall E F, both_rest h h' E F [TClose] Nil Nil E F []
| BR_dot : forall E F ts v w E' F' Z, both h h' E F ts v w E' F' Z -> both_rest h h' E F (TDot :: ts ++ [TClose]) v w E' F' Z
| BR_pair : forall E F p q a d b e ts us E1 F1 E2 F2 Z1 Z2, nth_error h p = Some (Cons a d) -> nth_error h' q = Some (Cons b e) ->
    both h h' E F ts a b E1 F1 Z1 -> both_rest h h' E1 F1 us d e E2 F2 Z2 -> after [] ts = [] -> both_rest h h' E F (ts ++ us) (Ptr p) (Ptr q) E2 F2 ((p, q) :: Z1 ++ Z2)
with both_all (h h' : store) : scope -> scope -> list token -> list val -> list val -> scope -> scope -> pairing -> Prop :=
| BA_nil : forall E F, both_all h h' E F [] [] [] E F []
| BA_cons : forall E F ts v w E1 F1 us vs ws E2 F2 Z1 Z2, both h h' E F ts v w E1 F1 Z1 -> both_all h h' E1 F1 us vs ws E2 F2 Z2 -> after [] ts = [] ->
    both_all h h' E F (ts ++ us) (v :: vs) (w :: ws) E2 F2 (Z1 ++ Z2).
Scheme both_mut := Induction for both Sort Prop
  with both_rest_mut := Induction for both_rest Sort Prop
  with both_all_mut := Induction for both_all Sort Prop.
Combined Scheme both_ind3 from both_mut, both_rest_mut, both_all_mut.

Definition matches (Z : pairing) (D D' : list nat) : Prop := map fst Z = D /\ map snd Z = D'.
Lemma matches_app Z1 Z2 A A' B B' : matches Z1 A A' -> matches Z2 B B' -> matches (Z1 ++ Z2) (A ++ B) (A' ++ B').
Proof. intros (<- & <-) (<- & <-). split; apply map_app. Qed.
Lemma matches_cons Z p q A A' : matches Z A A' -> matches ((p, q) :: Z) (p :: A) (q :: A').
Proof. intros (<- & <-). split; reflexivity. Qed.
Ltac no_text :=
  exfalso; match goal with
  | H : tells _ _ ?x _ _ _, Eq : ?x ++ _ = _ |- _ => destruct (shows_begins _ _ _ _ _ (tells_shows _ _ _ _ _ _ H)) as (t & ts'' & -> & B & B'); cbn in Eq; congruence
  | H : tells _ _ ?x _ _ _, Eq : _ = ?x ++ _ |- _ => destruct (shows_begins _ _ _ _ _ (tells_shows _ _ _ _ _ _ H)) as (t & ts'' & -> & B & B'); cbn in Eq; congruence
  end.
Ltac same_text h h' :=
  match goal with
  | H : tells h _ ?x _ _ _, K : tells h' _ ?y _ _ _, Eq : ?y ++ _ = ?x ++ _ |- _ =>
    destruct (proj1 (unique_text h' h) _ _ _ _ (tells_shows _ _ _ _ _ _ K) _ _ _ _ _ _ (tells_shows _ _ _ _ _ _ H) Eq) as [-> ->]
  end.
Lemma tells_both h h' :
  (forall E ts v E' D, tells h E ts v E' D -> forall F w F' D', tells h' F ts w F' D' -> exists Z, both h h' E F ts v w E' F' Z /\ matches Z D D') /\
  (forall E ts v E' D, tells_rest h E ts v E' D -> forall F w F' D', tells_rest h' F ts w F' D' -> exists Z, both_rest h h' E F ts v w E' F' Z /\ matches Z D D') /\
  (forall E ts vs E' D, tells_all h E ts vs E' D -> forall F ws F' D', tells_all h' F ts ws F' D' -> exists Z, both_all h h' E F ts vs ws E' F' Z /\ matches Z D D').
Proof.
  apply tells_ind3.
  - intros E v A F w F' D' S. inversion S; subst. exists []. split; [constructor; exact A|split; reflexivity].
  - intros E F w F' D' S. inversion S; subst; [exists []; split; [constructor|split; reflexivity]|]. no_text.
  - intros E n p St F w F' D' S. inversion S; subst. exists []. split; [constructor; assumption|split; reflexivity].
  - intros E n p ts E' D Fr NU S1 IH F w F' D' S. inversion S; subst. match goal with H : tells h' _ ts _ _ _ |- _ => destruct (IH _ _ _ _ H) as (Z & B & M) end.
    exists Z. split; [constructor; exact B|exact M].
  - intros E p a d ts us E1 E2 D1 D2 N S1 IH1 S2 IH2 F w F' D' S.
    inversion S; subst; [no_text|]. same_text h h'.
    match goal with H : tells h' _ ts _ _ _, K : tells_rest h' _ us _ _ _ |- _ => destruct (IH1 _ _ _ _ H) as (Z1 & B1 & M1); destruct (IH2 _ _ _ _ K) as (Z2 & B2 & M2) end.
    eexists. split; [eapply B_pair; eauto; apply (proj1 (after_shows h) _ _ _ _ (tells_shows _ _ _ _ _ _ S1))|]. apply matches_cons, matches_app; assumption.
  - intros E p vs ts E' D N S1 IH F w F' D' S. inversion S; subst.
    match goal with Eq : _ ++ [TClose] = _ ++ [TClose] |- _ => apply app_inj_tail in Eq; destruct Eq as [-> _] end.
    match goal with H : tells_all h' _ ts _ _ _ |- _ => destruct (IH _ _ _ _ H) as (Z & B & M) end.
    eexists. split; [eapply B_vector; eauto|]. destruct B; cbn [own app]; [exact M|apply matches_cons, M].
  - intros E F w F' D' S. inversion S; subst; [exists []; split; [constructor|split; reflexivity]|]. no_text.
  - intros E ts v E' D S1 IH F w F' D' S. inversion S; subst; [|no_text].
    match goal with Eq : _ ++ [TClose] = _ ++ [TClose] |- _ => apply app_inj_tail in Eq; destruct Eq as [-> _] end.
    match goal with H : tells h' _ ts _ _ _ |- _ => destruct (IH _ _ _ _ H) as (Z & B & M) end. exists Z. split; [constructor; exact B|exact M].
  - intros E p a d ts us E1 E2 D1 D2 N S1 IH1 S2 IH2 F w F' D' S.
    inversion S; [no_text|no_text|]. subst. same_text h h'.
    match goal with H : tells h' _ ts _ _ _, K : tells_rest h' _ us _ _ _ |- _ => destruct (IH1 _ _ _ _ H) as (Z1 & B1 & M1); destruct (IH2 _ _ _ _ K) as (Z2 & B2 & M2) end.
    eexists. split; [eapply BR_pair; eauto; apply (proj1 (after_shows h) _ _ _ _ (tells_shows _ _ _ _ _ _ S1))|]. apply matches_cons, matches_app; assumption.
  - intros E F ws F' D' S. inversion S; subst; [exists []; split; [constructor|split; reflexivity]|]. no_text.
  - intros E ts v E1 us vs E2 D1 D2 S1 IH1 S2 IH2 F ws F' D' S.
    inversion S; [no_text|]. subst. same_text h h'.
    match goal with H : tells h' _ ts _ _ _, K : tells_all h' _ us _ _ _ |- _ => destruct (IH1 _ _ _ _ H) as (Z1 & B1 & M1); destruct (IH2 _ _ _ _ K) as (Z2 & B2 & M2) end.
    eexists. split; [eapply BA_cons; eauto; apply (proj1 (after_shows h) _ _ _ _ (tells_shows _ _ _ _ _ _ S1))|]. apply matches_app; assumption.
Qed.

(** ** They are alike *)
Lemma grounded_less ts : forall C D, incl D C -> grounded C ts -> grounded D ts.
Proof.
  induction ts as [|t ts IH]; intros C D I G; [exact Logic.I|]. destruct t; cbn [grounded] in *; auto.
  - eapply IH; [|exact G]. intros x [<-|H]; [left; reflexivity|right; auto].
  - destruct G as [N G]. split; [intros H; apply N, I, H|exact G].
Qed.
Lemma incl_cons_app (x : nat * nat) A B Z : incl (x :: A ++ B) Z -> In x Z /\ incl A Z /\ incl B Z.
Proof.
  intros I. split; [apply I; left; reflexivity|]. split; intros y J; apply I; right; apply in_or_app; auto.
Qed.
Lemma incl_app_both (A B Z : pairing) : incl (A ++ B) Z -> incl A Z /\ incl B Z.
Proof. intros I. split; intros y J; apply I, in_or_app; auto. Qed.
Section Twins.
Variables h h' : store.
(** The objects described by the whole text *)
Variable W : pairing.
(** Labels that stand for objects described by the same texts *)
Inductive ctx : scope -> scope -> Prop :=
| Ctx_nil : ctx [] []
| Ctx_cons : forall E F n p q ts E' F' Z, ctx E F -> both h h' ((n, p) :: E) ((n, q) :: F) ts (Ptr p) (Ptr q) E' F' Z -> incl Z W -> grounded [n] ts ->
    ctx ((n, p) :: E) ((n, q) :: F).
Lemma ctx_both :
  (forall E F ts v w E' F' Z, both h h' E F ts v w E' F' Z -> incl Z W -> forall C, grounded C ts -> ctx E F -> ctx E' F') /\
  (forall E F ts v w E' F' Z, both_rest h h' E F ts v w E' F' Z -> incl Z W -> grounded [] ts -> ctx E F -> ctx E' F') /\
  (forall E F ts vs ws E' F' Z, both_all h h' E F ts vs ws E' F' Z -> incl Z W -> grounded [] ts -> ctx E F -> ctx E' F').
Proof.
  apply both_ind3; try (intros; assumption).
  - intros E F n p q ts E' F' Z B IH I C G X. cbn [grounded] in G. eapply IH; [exact I|exact G|]. econstructor; [exact X|exact B|exact I|].
    eapply grounded_less; [|exact G]. intros x [<-|[]]. left. reflexivity.
  - intros E F p q a d b e ts us E1 F1 E2 F2 Z1 Z2 N N' B1 IH1 B2 IH2 A I C G X. apply incl_cons_app in I. destruct I as (_ & I1 & I2).
    apply grounded_open in G; [|auto]. apply grounded_app in G. rewrite A in G. destruct G as [G1 G2]. eauto.
  - intros E F p q vs ws ts E' F' Z N N' B IH I C G X. apply incl_app_both in I. apply grounded_open in G; [|auto]. apply grounded_app in G. destruct G as [G1 G2]. eapply IH; [apply I|exact G1|exact X].
  - intros E F ts v w E' F' Z B IH I G X. apply grounded_open in G; [|auto]. apply grounded_app in G. destruct G as [G1 G2]. eauto.
  - intros E F p q a d b e ts us E1 F1 E2 F2 Z1 Z2 N N' B1 IH1 B2 IH2 A I G X. apply incl_cons_app in I. destruct I as (_ & I1 & I2). apply grounded_app in G. rewrite A in G. destruct G as [G1 G2]. eauto.
  - intros E F ts v w E1 F1 us vs ws E2 F2 Z1 Z2 B1 IH1 B2 IH2 A I G X. apply incl_app_both in I. destruct I as (I1 & I2). apply grounded_app in G. rewrite A in G. destruct G as [G1 G2]. eauto.
Qed.
Lemma ctx_stands E F : ctx E F -> forall n p q, stands n p E -> stands n q F ->
  exists E0 F0 ts E' F' Z, ctx E0 F0 /\ ctx ((n, p) :: E0) ((n, q) :: F0) /\ both h h' ((n, p) :: E0) ((n, q) :: F0) ts (Ptr p) (Ptr q) E' F' Z /\ incl Z W /\ grounded [n] ts /\ length E0 < length E.
Proof.
  induction 1 as [|E F m r s ts E' F' Z X IH B I G]; intros n p q S T; [inversion S|].
  inversion S as [E1 Eq|m' r' E1 N S' Eq]; subst; inversion T as [F1 Eq'|m'' r'' F1 N' T' Eq']; subst; try congruence.
  - exists E, F, ts, E', F', Z. split; [exact X|]. split; [econstructor; eassumption|]. split; [exact B|]. split; [exact I|]. split; [exact G|cbn; lia].
  - destruct (IH n p q S' T') as (E0 & F0 & us & E2 & F2 & Z2 & a & b & c & i & d & L). exists E0, F0, us, E2, F2, Z2. repeat (split; [assumption|]). cbn. lia.
Qed.
Lemma stands_out n p C E : ~ In n (map fst C) -> stands n p (C ++ E) -> stands n p E.
Proof.
  induction C as [|(m, r) C IH]; intros N S; [exact S|]. cbn [app map fst] in *. inversion S; subst; [destruct N; left; reflexivity|]. apply IH; [|assumption]. intros H. apply N. right. exact H.
Qed.
Lemma ctx_tail C D E F : map fst C = map fst D -> ctx (C ++ E) (D ++ F) -> ctx E F.
Proof.
  revert D. induction C as [|(n, p) C IH]; intros [|(m, q) D] M X; try discriminate M; [exact X|]. cbn in *. injection M as -> M. inversion X; subst. eapply IH; eassumption.
Qed.
Definition plain_start (ts : list token) : Prop := forall n us, ts <> TDecl n :: us /\ ts <> TUse n :: us.
Lemma strip : forall N ts C D E0 F0 v w E' F' Z, length E0 <= N -> map fst C = map fst D -> ctx (C ++ E0) (D ++ F0) -> both h h' (C ++ E0) (D ++ F0) ts v w E' F' Z -> incl Z W ->
  grounded (map fst C) ts ->
  exists E F us E'' F'' Z', ctx E F /\ both h h' E F us v w E'' F'' Z' /\ incl Z' W /\ grounded [] us /\ plain_start us.
Proof.
  induction N as [N IHN] using lt_wf_ind. induction ts as [|t ts IH]; intros C D E0 F0 v w E' F' Z L M X B I G; [inversion B|].
  assert (Plain : plain_start (t :: ts) -> exists E F us E'' F'' Z', ctx E F /\ both h h' E F us v w E'' F'' Z' /\ incl Z' W /\ grounded [] us /\ plain_start us).
  { intros P. exists (C ++ E0), (D ++ F0), (t :: ts), E', F', Z. split; [exact X|]. split; [exact B|]. split; [exact I|]. split; [|exact P]. eapply grounded_less; [|exact G]. intros x []. }
  destruct t; try (apply Plain; intros m us; split; discriminate).
  - inversion B; subst. cbn [grounded] in G.
    eapply (IH ((n, p) :: C) ((n, q) :: D) E0 F0); [exact L|cbn; congruence| |cbn; eassumption|exact I|exact G].
    cbn. econstructor; [exact X|eassumption|exact I|]. eapply grounded_less; [|exact G]. intros x [<-|[]]. left. reflexivity.
  - inversion B; subst. destruct G as [G _].
    assert (G' : ~ In n (map fst D)) by (rewrite <- M; exact G).
    match goal with S : stands n p _, T : stands n q _ |- _ => apply (stands_out _ _ _ _ G) in S; apply (stands_out _ _ _ _ G') in T;
      destruct (ctx_stands _ _ (ctx_tail _ _ _ _ M X) n p q S T) as (E1 & F1 & us & E2 & F2 & Z2 & X1 & X2 & B2 & I2 & G2 & L2) end.
    eapply (IHN (length E1) ltac:(lia) us [(n, p)] [(n, q)] E1 F1); [lia|reflexivity|exact X2|exact B2|exact I2|exact G2].
Qed.

(** What is described by the same part of a text *)
Definition twins (v w : val) : Prop :=
  (exists E F ts E' F' Z, ctx E F /\ both h h' E F ts v w E' F' Z /\ incl Z W /\ grounded [] ts) \/
  (exists E F ts E' F' Z, ctx E F /\ both_rest h h' E F ts v w E' F' Z /\ incl Z W /\ grounded [] ts).
Lemma twins_all E F ts vs ws E' F' Z : both_all h h' E F ts vs ws E' F' Z -> incl Z W -> ctx E F -> grounded [] ts -> Forall2 twins vs ws.
Proof.
  induction 1 as [|E F ts v w E1 F1 us vs ws E2 F2 Z1 Z2 B Bs IH A]; intros I X G; constructor; apply grounded_app in G; rewrite A in G; destruct G as [G1 G2];
    apply incl_app_both in I; destruct I as (I1 & I2).
  - left. exists E, F, ts, E1, F1, Z1. auto.
  - apply IH; [exact I2| |exact G2]. eapply (proj1 ctx_both); eassumption.
Qed.
Lemma twins_pair E F ts us a b d e E1 F1 E2 F2 Z1 Z2 : ctx E F -> both h h' E F ts a b E1 F1 Z1 -> both_rest h h' E1 F1 us d e E2 F2 Z2 -> incl Z1 W -> incl Z2 W -> after [] ts = [] -> grounded [] (ts ++ us) ->
  twins a b /\ twins d e.
Proof.
  intros X B1 B2 I1 I2 A G. apply grounded_app in G. rewrite A in G. destruct G as [G1 G2]. split.
  - left. exists E, F, ts, E1, F1, Z1. auto.
  - right. exists E1, F1, us, E2, F2, Z2. split; [eapply (proj1 ctx_both); eassumption|auto].
Qed.
(** Pairs and vectors that are related are described by the same part of the text *)
Lemma twins_step : forall v w, twins v w ->
    v = w /\ (forall p, v = Ptr p -> (forall a d, nth_error h p <> Some (Cons a d)) /\ (forall vs, nth_error h p <> Some (Vector vs))) \/
    (exists p q a d b e, v = Ptr p /\ w = Ptr q /\ nth_error h p = Some (Cons a d) /\ nth_error h' q = Some (Cons b e) /\ In (p, q) W /\ twins a b /\ twins d e) \/
    (exists p q vs ws, v = Ptr p /\ w = Ptr q /\ nth_error h p = Some (Vector vs) /\ nth_error h' q = Some (Vector ws) /\ (vs <> [] -> In (p, q) W) /\ Forall2 twins vs ws).
Proof.
  assert (Obj : forall E F ts v w E' F' Z, ctx E F -> both h h' E F ts v w E' F' Z -> incl Z W -> grounded [] ts ->
    v = w /\ (forall p, v = Ptr p -> (forall a d, nth_error h p <> Some (Cons a d)) /\ (forall vs, nth_error h p <> Some (Vector vs))) \/
    (exists p q a d b e, v = Ptr p /\ w = Ptr q /\ nth_error h p = Some (Cons a d) /\ nth_error h' q = Some (Cons b e) /\ In (p, q) W /\ twins a b /\ twins d e) \/
    (exists p q vs ws, v = Ptr p /\ w = Ptr q /\ nth_error h p = Some (Vector vs) /\ nth_error h' q = Some (Vector ws) /\ (vs <> [] -> In (p, q) W) /\ Forall2 twins vs ws)).
  { intros E F ts v w E' F' Z X B I G. destruct (strip (length E) ts [] [] E F v w E' F' Z (Nat.le_refl _) eq_refl X B I G) as (E0 & F0 & us & E1 & F1 & Z0 & X0 & B0 & I0 & G0 & P).
    destruct B0.
    - left. split; [reflexivity|]. intros p ->. match goal with A : atomic _ _ |- _ => inversion A; subst end; split; congruence.
    - left. split; [reflexivity|discriminate].
    - destruct (P n []) as [_ K]. congruence.
    - destruct (P n ts0) as [K _]. congruence.
    - right. left. exists p, q, a, d, b, e. apply grounded_open in G0; [|auto]. apply incl_cons_app in I0. destruct I0 as (I1 & I2 & I3). repeat (split; [solve [auto]|]). eapply twins_pair; eassumption.
    - right. right. exists p, q, vs, ws. apply grounded_open in G0; [|auto]. apply grounded_app in G0. apply incl_app_both in I0. destruct I0 as (I1 & I2). do 4 (split; [solve [auto]|]).
      split; [intros N; apply I1; destruct vs; [congruence|left; reflexivity]|]. eapply twins_all; [eassumption|exact I2|eassumption|apply G0]. }
  intros v w [(E & F & ts & E' & F' & Z & X & B & I & G)|(E & F & ts & E' & F' & Z & X & B & I & G)]; [eapply Obj; eassumption|]. destruct B.
  - left. split; [reflexivity|discriminate].
  - apply grounded_open in G; [|auto]. apply grounded_app in G. eapply Obj; [exact X|eassumption|exact I|apply G].
  - right. left. exists p, q, a, d, b, e. apply incl_cons_app in I. destruct I as (I1 & I2 & I3). repeat (split; [solve [auto]|]). eapply twins_pair; eassumption.
Qed.
Lemma twins_alike : alike_by h h' twins.
Proof.
  intros v w T. destruct (twins_step v w T) as [K|[(p & q & a & d & b & e & K1 & K2 & K3 & K4 & _ & K5)|(p & q & vs & ws & K1 & K2 & K3 & K4 & _ & K5)]]; [auto| |].
  - right. left. exists p, q, a, d, b, e. auto.
  - right. right. exists p, q, vs, ws. auto.
Qed.
(** Nothing is described twice: the relation is one-to-one *)
Hypothesis Once : NoDup (map fst W).
Hypothesis Once' : NoDup (map snd W).
Lemma nodup_fst : forall (Z : pairing) p q q', NoDup (map fst Z) -> In (p, q) Z -> In (p, q') Z -> q = q'.
Proof.
  induction Z as [|(a, b) Z IH]; intros p q q' N; [intros []|]. cbn in N. inversion N as [|x l NI N']; subst. intros [X|I] [Y|J].
  - congruence.
  - destruct NI. injection X as -> ->. change p with (fst (p, q')). apply in_map, J.
  - destruct NI. injection Y as -> ->. change p with (fst (p, q)). apply in_map, I.
  - eapply IH; eassumption.
Qed.
Lemma nodup_snd : forall (Z : pairing) p p' q, NoDup (map snd Z) -> In (p, q) Z -> In (p', q) Z -> p = p'.
Proof.
  induction Z as [|(a, b) Z IH]; intros p p' q N; [intros []|]. cbn in N. inversion N as [|x l NI N']; subst. intros [X|I] [Y|J].
  - congruence.
  - destruct NI. injection X as -> ->. change q with (snd (p', q)). apply in_map, J.
  - destruct NI. injection Y as -> ->. change q with (snd (p, q)). apply in_map, I.
  - eapply IH; eassumption.
Qed.
Lemma twins_in : forall p w o, nth_error h p = Some o -> parts o <> [] -> twins (Ptr p) w -> exists q, w = Ptr q /\ In (p, q) W.
Proof.
  intros p w o Np Po T. destruct (twins_step _ _ T) as [(_ & K)|[(p' & q & a & d & b & e & [= <-] & -> & K3 & K4 & K & _)|(p' & q & vs & ws & [= <-] & -> & K3 & K4 & K & _)]].
  - destruct (K p eq_refl) as (K1 & K2). destruct o as [a d|vs|n| |n]; cbn in Po; congruence.
  - eauto.
  - exists q. split; [reflexivity|]. apply K. rewrite K3 in Np. injection Np as <-. exact Po.
Qed.
Lemma twins_function : function h twins.
Proof.
  intros p o w w' Np Po T T'. destruct (twins_in p w o Np Po T) as (q & -> & I). destruct (twins_in p w' o Np Po T') as (q' & -> & I'). f_equal. eapply nodup_fst; eassumption.
Qed.
Lemma twins_once : one_to_one h twins.
Proof.
  intros p p' o o' w w' Np Np' Po Po' T T'. destruct (twins_in p w o Np Po T) as (q & -> & I). destruct (twins_in p' w' o' Np' Po' T') as (q' & -> & I'). split.
  - intros <-. f_equal. eapply nodup_fst; eassumption.
  - intros [= <-]. eapply nodup_snd; eassumption.
Qed.
End Twins.
Theorem depicted_alike : forall h ts v h' w, depicts h ts v -> depicts h' ts w -> grounded [] ts -> alike h v h' w.
Proof.
  intros h ts v h' w (E & S) (F & T) G. destruct (shows_tells _ _ _ _ _ S) as (D & S'). destruct (shows_tells _ _ _ _ _ T) as (D' & T').
  destruct (proj1 (tells_both h h') _ _ _ _ _ S' _ _ _ _ T') as (Z & B & _).
  exists (twins h h' Z). split; [apply twins_alike|]. left. exists [], [], ts, E, F, Z. split; [constructor|]. split; [exact B|]. split; [apply incl_refl|exact G].
Qed.
Theorem told_same : forall h ts v h' w E F D D', tells h [] ts v E D -> tells h' [] ts w F D' -> NoDup D -> NoDup D' -> grounded [] ts -> isomorphic h v h' w.
Proof.
  intros h ts v h' w E F D D' S T N N' G. destruct (proj1 (tells_both h h') _ _ _ _ _ S _ _ _ _ T) as (Z & B & M & M').
  exists (twins h h' Z). split; [apply twins_alike|]. split; [apply twins_once; congruence|].
  left. exists [], [], ts, E, F, Z. split; [constructor|]. split; [exact B|]. split; [apply incl_refl|exact G].
Qed.

Theorem told_unshared : forall h ts v h' w E D, tells h [] ts v E D -> NoDup D -> depicts h' ts w -> grounded [] ts -> maps_to h v h' w.
Proof.
  intros h ts v h' w E D S N (F & T) G. destruct (shows_tells _ _ _ _ _ T) as (D' & T').
  destruct (proj1 (tells_both h h') _ _ _ _ _ S _ _ _ _ T') as (Z & B & M & M').
  exists (twins h h' Z). split; [apply twins_alike|]. split; [apply twins_function; congruence|].
  left. exists [], [], ts, E, F, Z. split; [constructor|]. split; [exact B|]. split; [apply incl_refl|exact G].
Qed.

(** ** The texts of write/ss *)
Lemma plain_grounded h v C : grounded C (plain h v) /\ after C (plain h v) = [].
Proof. unfold plain. destruct v as [| |p]; [cbn; auto|cbn; auto|]. destruct (nth_error h p) as [[]|]; cbn; auto. Qed.
Definition good (C : list nat) (ts : list token) : Prop := grounded C ts /\ after C ts = [].
Lemma good_app C ts us : good C ts -> good [] us -> good C (ts ++ us).
Proof. intros [G A] [G' A']. split; [apply grounded_app; rewrite A; auto|rewrite after_app, A; exact A']. Qed.
Lemma good_close : good [] [TClose].
Proof. split; [exact Logic.I|reflexivity]. Qed.
Lemma good_open C t ts : (t = TOpen \/ t = TVec \/ t = TDot) -> good [] ts -> good C (t :: ts).
Proof. intros [-> | [-> | ->]] G; exact G. Qed.
Lemma each_good f : (forall al v ts al', f al v = Done (ts, al') -> good [] ts) -> forall vs al ts al', each_obj f al vs = Done (ts, al') -> good [] ts.
Proof.
  intros F. induction vs as [|v vs IH]; intros al ts al' W; cbn [each_obj] in W; [injection W as <- <-; split; [exact Logic.I|reflexivity]|].
  destruct (f al v) as [(us, al1)| |] eqn:Y; cbn [rbind] in W; try discriminate W.
  destruct (each_obj f al1 vs) as [(xs, al2)| |] eqn:Z; cbn [rbind] in W; try discriminate W. injection W as <- <-. apply good_app; eauto.
Qed.
Lemma write_good h : forall fuel k al v ts al', write_obj fuel k h al v = Done (ts, al') -> good [] ts /\ (k = Interesting -> forall C, good C ts).
Proof.
  induction fuel as [|fuel IH]; intros k al v ts al' W; [discriminate W|].
  assert (Obj : forall al v ts al', write_obj fuel Obj_part h al v = Done (ts, al') -> good [] ts) by (intros ? ? ? ? Y; exact (proj1 (IH _ _ _ _ _ Y))).
  assert (Cdr : forall al v ts al', write_obj fuel Cdr_part h al v = Done (ts, al') -> good [] ts) by (intros ? ? ? ? Y; exact (proj1 (IH _ _ _ _ _ Y))).
  destruct k; cbn [write_obj] in W.
  - split; [|discriminate]. destruct (interesting h v); [|injection W as <- <-; apply plain_grounded].
    destruct (assq v al) as [[]|] eqn:Q; try discriminate W.
    + exact (proj1 (IH _ _ _ _ _ W)).
    + destruct al as [|(x, []) al]; try discriminate W.
      destruct (write_obj fuel Interesting h _ v) as [(us, al1)| |] eqn:Y; cbn [rbind] in W; try discriminate W. injection W as <- <-.
      apply (proj2 (IH _ _ _ _ _ Y) eq_refl [S n]).
    + injection W as <- <-. split; [split; [intros []|exact Logic.I]|reflexivity].
  - assert (All : forall C, good C ts); [|split; [apply All|intros _; exact All]]. intros C.
    destruct v as [| |p]; try discriminate W. destruct (nth_error h p) as [[a d|vs|size| |n]|] eqn:P; try discriminate W; try (injection W as <- <-; split; [exact Logic.I|reflexivity]).
    + destruct (write_obj fuel Obj_part h al a) as [(us, al1)| |] eqn:Y; cbn [rbind] in W; try discriminate W.
      destruct (write_obj fuel Cdr_part h al1 d) as [(xs, al2)| |] eqn:Z; cbn [rbind] in W; try discriminate W. injection W as <- <-.
      apply good_open; [auto|]. apply good_app; eauto.
    + destruct (each_obj (write_obj fuel Obj_part h) al vs) as [(us, al1)| |] eqn:Y; cbn [rbind] in W; try discriminate W. injection W as <- <-.
      apply good_open; [auto|]. apply good_app; [|apply good_close]. exact (each_good _ Obj _ _ _ _ Y).
  - split; [|discriminate]. destruct v as [|b|q].
    + injection W as <- <-. apply good_close.
    + injection W as <- <-. split; [exact Logic.I|reflexivity].
    + assert (Dot : forall r, r = ('(ts, al) <- write_obj fuel Obj_part h al (Ptr q); Done (TDot :: ts ++ [TClose], al)) -> r = Done (ts, al') -> good [] ts).
      { intros r -> Y. destruct (write_obj fuel Obj_part h al (Ptr q)) as [(us, al1)| |] eqn:Z; cbn [rbind] in Y; try discriminate Y. injection Y as <- <-.
        apply good_open; [auto|]. apply good_app; [|apply good_close]. eauto. }
      destruct (nth_error h q) as [[a d|vs|size| |n]|] eqn:P; try (eapply Dot; [reflexivity|exact W]).
      destruct (assq (Ptr q) al) as [[]|] eqn:Q; try discriminate W; try (eapply Dot; [reflexivity|exact W]).
      destruct (write_obj fuel Obj_part h al a) as [(us, al1)| |] eqn:Y; cbn [rbind] in W; try discriminate W.
      destruct (write_obj fuel Cdr_part h al1 d) as [(xs, al2)| |] eqn:Z; cbn [rbind] in W; try discriminate W. injection W as <- <-.
      apply good_app; eauto.
Qed.
Lemma write_shared_grounded fuel h v ts : write_shared fuel h v = Done ts -> grounded [] ts.
Proof.
  unfold write_shared. destruct (scan fuel h [] v) as [al| |]; cbn [rbind]; try discriminate. destruct (write_obj _ _ _ _ _) as [(us, al1)| |] eqn:Y; cbn [rbind]; try discriminate.
  intros [= ->]. exact (proj1 (proj1 (write_good _ _ _ _ _ _ _ Y))).
Qed.
(** The atoms of a text are atoms of the heap it describes *)
Lemma shows_atoms h :
  (forall E ts v E', shows h E ts v E' -> forall x, In (TAtom x) ts -> atomic h x) /\
  (forall E ts v E', shows_rest h E ts v E' -> forall x, In (TAtom x) ts -> atomic h x) /\
  (forall E ts vs E', shows_all h E ts vs E' -> forall x, In (TAtom x) ts -> atomic h x).
Proof.
  apply shows_ind3; intros; repeat match goal with
  | H : In _ (_ :: _) |- _ => destruct H
  | H : In _ (_ ++ _) |- _ => apply in_app_or in H; destruct H
  | H : In _ [] |- _ => destruct H
  end; try discriminate; auto. congruence.
Qed.
Theorem write_read_shared : forall h v rest, sound h -> valid h v ->
  exists ts v' h' f0, (forall fuel, f0 <= fuel -> write_shared fuel h v = Done ts /\ read_shared fuel h (ts ++ rest) = Done (Object v', h', rest)) /\
    (forall q, q < length h -> nth_error h' q = nth_error h q) /\ alike h v h' v'.
Proof.
  intros h v rest S V. destruct (write_shared_ok h v S V) as (ts & f & W & E & Sh & _). pose proof (write_shared_grounded _ _ _ _ (W f (Nat.le_refl _))) as G.
  destruct (read_shared_ok h ts v h rest (ex_intro _ E Sh) G (proj1 (shows_atoms h) _ _ _ _ Sh) (proj1 S)) as (v' & h' & f' & R & K & D).
  exists ts, v', h', (Nat.max f f'). split; [intros fuel L; split; [apply W; lia|apply R; lia]|]. split; [exact K|].
  eapply depicted_alike; [exists E; exact Sh|exact D|exact G].
Qed.
