(** The compiled code computes what the source-level semantics prescribes. *)
From Coq Require Import ZArith List Bool Lia.
From Verif Require Import Machine Generator CoreSemantics.
Import ListNotations.

(** ** Which code the generator produces for an expression, as a relation *)
Definition code_of_identity (sc : list (nat * nat)) (bv : list form) (x : nat) (i : identity) : Prop :=
  identify_bound 0 bv x = Some i \/
  identify_bound 0 bv x = None /\ exists n, assq x sc = Some n /\ i = IdAbsolute n.

Section Code.
(** the identifiers bound to keywords at top level *)
Variable kw : nat -> option keyword.
Inductive code_for (sc : list (nat * nat)) : list form -> exp -> bool -> code -> code -> Prop :=
| CF_const bv v t c : code_for sc bv (Const v) t c (ILoadConstant v :: c)
| CF_var bv x t c i : code_of_identity sc bv x i -> code_for sc bv (Var x) t c (load i c)
| CF_lam bv fs xs r b t c c' :
    formals fs xs r -> code_body sc (fs :: bv) b true [IReturn] c' -> code_for sc bv (Lam xs r b) t c (ILoadClosure c' :: c)
| CF_app bv e args (t : bool) c c1 c2 :
    code_for sc bv e false (if t then [ITailCall] else ICall :: c) c1 -> code_args sc bv args c1 c2 ->
    code_for sc bv (App e args) t c c2
| CF_if bv a b x (t : bool) c c1 c2 c3 :
    code_for sc bv b t (if t then c else [IJoin]) c1 -> code_for sc bv x t (if t then c else [IJoin]) c2 ->
    code_for sc bv a false (if t then [ITailSelect c1 c2] else ISelect c1 c2 :: c) c3 ->
    code_for sc bv (If a b x) t c c3
| CF_assign bv x i e t c c1 :
    code_of_identity sc bv x i -> code_for sc bv e false (store i c) c1 -> code_for sc bv (Assign x e) t c c1
| CF_define x n e t c c1 :
    assq x sc = Some n -> kw x = None -> code_for sc [] e false (IStoreAbsolute n :: c) c1 -> code_for sc [] (Define x e) t c c1
| CF_letrec bv fs xs inits b (t : bool) c c' c1 :
    formals fs xs None -> code_body sc (fs :: bv) b true [IReturn] c' ->
    code_args sc (fs :: bv) inits (ILoadClosure c' :: (if t then [ITailLetrec] else ILetrec :: c)) c1 ->
    code_for sc bv (Letrec xs inits b) t c (IDummy :: c1)
| CF_seq bv es t c c1 : code_body sc bv es t c c1 -> code_for sc bv (Seq es) t c c1
with code_args (sc : list (nat * nat)) : list form -> list exp -> code -> code -> Prop :=
| CA_nil bv c : code_args sc bv [] c (ILoadConstant VNil :: c)
| CA_cons bv e es c c1 c2 : code_for sc bv e false (ICons :: c) c1 -> code_args sc bv es c1 c2 -> code_args sc bv (e :: es) c c2
with code_body (sc : list (nat * nat)) : list form -> list exp -> bool -> code -> code -> Prop :=
| CB_last bv e t c c1 : code_for sc bv e t c c1 -> code_body sc bv [e] t c c1
| CB_then bv e es t c c1 c2 : code_body sc bv es t c c1 -> code_for sc bv e false (IDrop :: c1) c2 -> code_body sc bv (e :: es) t c c2.
Scheme code_for_mind := Minimality for code_for Sort Prop
  with code_args_mind := Minimality for code_args Sort Prop
  with code_body_mind := Minimality for code_body Sort Prop.
Combined Scheme code_mutind from code_for_mind, code_args_mind, code_body_mind.

Definition scope_le (a b : list (nat * nat)) : Prop := forall x n, assq x a = Some n -> assq x b = Some n.
Lemma scope_le_refl a : scope_le a a. Proof. intros x n H; exact H. Qed.
Lemma scope_le_trans a b c : scope_le a b -> scope_le b c -> scope_le a c.
Proof. intros H1 H2 x n H; auto. Qed.
Lemma code_mono : forall sc,
  (forall bv e t c c1, code_for sc bv e t c c1 -> forall sc', scope_le sc sc' -> code_for sc' bv e t c c1) /\
  (forall bv es c c1, code_args sc bv es c c1 -> forall sc', scope_le sc sc' -> code_args sc' bv es c c1) /\
  (forall bv es t c c1, code_body sc bv es t c c1 -> forall sc', scope_le sc sc' -> code_body sc' bv es t c c1).
Proof.
  intro sc. apply code_mutind; intros; try solve [econstructor; eauto].
  - constructor. destruct H as [H|(H & n & Hn & Hi)]; [left|right]; eauto.
  - econstructor; [|eauto]. destruct H as [H|(H & n & Hn & Hi)]; [left|right]; eauto.
Qed.

(** appending to the continuation of code that is not in tail position *)
Lemma code_append : forall sc,
  (forall bv e t c c1, code_for sc bv e t c c1 -> t = false -> forall k, code_for sc bv e false (c ++ k) (c1 ++ k)) /\
  (forall bv es c c1, code_args sc bv es c c1 -> forall k, code_args sc bv es (c ++ k) (c1 ++ k)) /\
  (forall bv es t c c1, code_body sc bv es t c c1 -> t = false -> forall k, code_body sc bv es false (c ++ k) (c1 ++ k)).
Proof.
  intro sc. apply code_mutind.
  - intros bv v t c _ k. cbn. constructor.
  - intros bv x t c i H _ k. replace (load i c ++ k) with (load i (c ++ k)) by (destruct i; reflexivity). constructor; exact H.
  - intros bv fs xs r b t c c' Hf Hb _ _ k. cbn. econstructor; eauto.
  - intros bv e args t c c1 c2 He IHe Ha IHa -> k. eapply CF_app; [apply (IHe eq_refl k)|apply IHa].
  - intros bv a b x t c c1 c2 c3 Hb IHb Hx IHx Ha IHa -> k.
    eapply CF_if; [exact Hb|exact Hx|]. apply (IHa eq_refl k).
  - intros bv x i e t c c1 Hi He IHe _ k. econstructor; [exact Hi|].
    replace (store i (c ++ k)) with (store i c ++ k) by (destruct i; reflexivity). apply (IHe eq_refl k).
  - intros x n e t c c1 Hi Hk He IHe _ k. econstructor; [exact Hi|exact Hk|]. apply (IHe eq_refl k).
  - intros bv fs xs inits b t c c' c1 Hf Hb _ Ha IHa -> k. cbn [app]. eapply CF_letrec; [exact Hf|exact Hb|]. apply (IHa k).
  - intros bv es t c c1 Hb IHb Ht k. constructor. auto.
  - intros bv c k. cbn. constructor.
  - intros bv e es c c1 c2 He IHe Ha IHa k. econstructor; [apply (IHe eq_refl k)|apply IHa].
  - intros bv e t c c1 He IHe Ht k. constructor. auto.
  - intros bv e es t c c1 c2 Hb IHb He IHe Ht k. econstructor; [apply (IHb Ht k)|apply (IHe eq_refl k)].
Qed.

End Code.

(** ** The generator produces that code *)
Section Generator.
Variable unspecified undefined : val.
Variable kw : nat -> option keyword.
Record wf_genv (G : genv) : Prop := {
  wg_inj : forall x y n, assq x (scope G) = Some n -> assq y (scope G) = Some n -> x = y;
  wg_bound : forall x n, assq x (scope G) = Some n -> n < length (cells G);
  wg_kw : forall x k, kw x = Some k -> exists n, assq x (scope G) = Some n /\ nth_error (cells G) n = Some (GSyntax k);
  wg_var : forall x n k, assq x (scope G) = Some n -> nth_error (cells G) n = Some (GSyntax k) -> kw x = Some k
}.
(** the cells that compilation adds *)
Record gext (G G' : genv) : Prop := {
  ge_scope : scope_le (scope G) (scope G');
  ge_cells : exists k, cells G' = cells G ++ repeat (GVal undefined) k;
  ge_new : forall x n, assq x (scope G') = Some n -> assq x (scope G) = Some n \/ length (cells G) <= n
}.
Lemma gext_refl G : gext G G.
Proof. split; [apply scope_le_refl|exists 0; cbn; rewrite app_nil_r; reflexivity|auto]. Qed.
Lemma gext_trans A B C : gext A B -> gext B C -> gext A C.
Proof.
  intros [S1 (k1 & C1) N1] [S2 (k2 & C2) N2]. split.
  - eapply scope_le_trans; eauto.
  - exists (k1 + k2). rewrite C2, C1, <- app_assoc, repeat_app. reflexivity.
  - intros x n H. destruct (N2 x n H) as [H1|H1]; [auto|]. right. rewrite C1, app_length in H1. lia.
Qed.

Inductive wf_bv : list form -> list (list nat) -> Prop :=
| WB_nil : wf_bv [] []
| WB_cons fs xs r bv bound : formals fs xs r -> wf_bv bv bound -> wf_bv (fs :: bv) ((xs ++ opt r) :: bound).
Lemma identify_formals_none fs xs r x : formals fs xs r -> forall i j,
  identify_formals i j fs x = None <-> ~ In x (xs ++ opt r).
Proof.
  induction 1 as [|y|p y d xs r H IH]; intros i j; cbn.
  - intuition.
  - destruct (Nat.eqb_spec y x) as [->|Hn]; split; intros H; try discriminate; try (intuition; fail).
  - destruct (Nat.eqb_spec y x) as [->|Hn].
    + split; [discriminate|intros Hx; exfalso; apply Hx; auto].
    + rewrite IH. intuition.
Qed.
Lemma identify_bound_none bv bound x : wf_bv bv bound -> forall i, identify_bound i bv x = None <-> ~ In x (concat bound).
Proof.
  induction 1 as [|fs xs r bv bound Hf Hb IH]; intro i; cbn.
  - intuition.
  - pose proof (identify_formals_none fs xs r x Hf i 0) as Hn.
    rewrite in_app_iff. destruct (identify_formals i 0 fs x) as [y|].
    + split; [discriminate|]. intros Hx. exfalso. apply Hx. left.
      destruct (in_dec Nat.eq_dec x (xs ++ opt r)) as [h|h]; [exact h|]. exfalso. apply Hn in h. discriminate.
    + rewrite IH. intuition.
Qed.
Lemma identify_formals_kind fs x : forall i j r, identify_formals i j fs x = Some r -> exists j', r = IdRelative i j' \/ r = IdVariadic i j'.
Proof.
  induction fs as [v|y|p a IHa d IHd]; intros i j r H; cbn in H.
  - discriminate.
  - destruct (Nat.eqb y x); [|discriminate]. injection H as <-. eauto.
  - destruct a as [v|y|q a' d']; try (eapply IHd; eauto; fail).
    destruct (Nat.eqb y x); [injection H as <-; eauto|eapply IHd; eauto].
Qed.
Lemma identify_bound_kind bv x : forall i r, identify_bound i bv x = Some r -> exists i' j', r = IdRelative i' j' \/ r = IdVariadic i' j'.
Proof.
  induction bv as [|fs bv IH]; intros i r H; cbn in H; [discriminate|].
  destruct (identify_formals i 0 fs x) as [y|] eqn:E; [|eauto].
  injection H as <-. apply identify_formals_kind in E. destruct E as (j' & E). eauto.
Qed.

Lemma identify_spec G bv x : wf_genv G ->
  exists i G', identify undefined G bv x = (i, G') /\ gext G G' /\ wf_genv G' /\ code_of_identity (scope G') bv x i.
Proof.
  intros W. unfold identify, identify_const. destruct (identify_bound 0 bv x) as [r|] eqn:Eb.
  - destruct (identify_bound_kind bv x 0 r Eb) as (i' & j' & [-> | ->]);
      eexists _, G; (split; [reflexivity|]); (split; [apply gext_refl|]); (split; [exact W|]); left; exact Eb.
  - destruct (assq x (scope G)) as [n|] eqn:Ea.
    + exists (IdAbsolute n), G. split; [reflexivity|]. split; [apply gext_refl|]. split; [exact W|]. right. eauto.
    + eexists _, _. split; [reflexivity|]. cbn [scope cells].
      assert (Hle : scope_le (scope G) ((x, length (cells G)) :: scope G)).
      { intros y n H. cbn. destruct (Nat.eqb_spec x y) as [<-|]; [congruence|exact H]. }
      split; [split; cbn [scope cells]|split; [split; cbn [scope cells]|]].
      * exact Hle.
      * exists 1. reflexivity.
      * intros y n H. cbn in H. destruct (Nat.eqb_spec x y) as [<-|]; [|auto]. injection H as <-. right. lia.
      * intros y z n Hy Hz. cbn in Hy, Hz.
        destruct (Nat.eqb_spec x y) as [<-|], (Nat.eqb_spec x z) as [<-|]; try reflexivity.
        -- injection Hy as <-. pose proof (wg_bound G W _ _ Hz). lia.
        -- injection Hz as <-. pose proof (wg_bound G W _ _ Hy). lia.
        -- eapply wg_inj; eauto.
      * intros y n H. cbn in H. rewrite app_length. cbn.
        destruct (Nat.eqb_spec x y) as [<-|]; [injection H as <-; lia|]. pose proof (wg_bound G W _ _ H). lia.
      * intros y k H. destruct (wg_kw G W y k H) as (n & Hn & Hc). exists n. split; [apply Hle; exact Hn|].
        rewrite nth_error_app1; [exact Hc|]. eapply wg_bound; eauto.
      * intros y n k H Hc. cbn in H. destruct (Nat.eqb_spec x y) as [<-|].
        -- injection H as <-. rewrite nth_error_app2, Nat.sub_diag in Hc by lia. discriminate.
        -- pose proof (wg_bound G W _ _ H). rewrite nth_error_app1 in Hc by lia. eapply wg_var; eauto.
      * right. split; [exact Eb|]. exists (length (cells G)). cbn. rewrite Nat.eqb_refl. auto.
Qed.
Lemma syntax_of_spec G bv bound a k : wf_genv G -> wf_bv bv bound ->
  (syntax_of G bv a = Some k <-> uses kw bound a k).
Proof.
  intros W B. unfold uses, syntax_of. split.
  - destruct a as [v|x|p a d]; try discriminate. unfold identify_const. intro H.
    destruct (identify_bound 0 bv x) as [r|] eqn:Eb.
    { destruct (identify_bound_kind bv x 0 r Eb) as (i & j & [-> | ->]); discriminate. }
    destruct (assq x (scope G)) as [n|] eqn:Ea; [|discriminate].
    destruct (nth_error (cells G) n) as [[k'|]|] eqn:Ec; try discriminate. injection H as <-.
    exists x. split; [reflexivity|]. split; [eapply identify_bound_none; eauto|]. eapply wg_var; eauto.
  - intros (x & -> & Hn & Hk). unfold identify_const.
    apply (identify_bound_none bv bound x B 0) in Hn. rewrite Hn.
    destruct (wg_kw G W x k Hk) as (n & -> & ->). reflexivity.
Qed.
Lemma syntax_of_none G bv bound a : wf_genv G -> wf_bv bv bound -> (forall k, ~ uses kw bound a k) -> syntax_of G bv a = None.
Proof.
  intros W B H. destruct (syntax_of G bv a) as [k|] eqn:E; [|reflexivity].
  exfalso. apply (H k). eapply syntax_of_spec; eauto.
Qed.

Scheme denotes_mind := Minimality for denotes Sort Prop
  with denotess_mind := Minimality for denotess Sort Prop
  with denotesb_mind := Minimality for denotesb Sort Prop
  with denotesl_mind := Minimality for denotesl Sort Prop.
Combined Scheme denotes_mutind from denotes_mind, denotess_mind, denotesb_mind, denotesl_mind.

Definition good (gen : genv -> gres) (spec : list (nat * nat) -> code -> Prop) : Prop :=
  forall G, wf_genv G -> exists G' c1, gen G = GOk c1 G' /\ gext G G' /\ wf_genv G' /\ spec (scope G') c1.
Definition Pf bound f e := forall bv, wf_bv bv bound -> exists N, forall fuel, N <= fuel -> forall c t, (t = true -> c = [IReturn]) ->
  good (fun G => generate unspecified undefined fuel G f bv c t) (fun sc c1 => code_for kw sc bv e t c c1).
Definition Ps bound f es := forall bv, wf_bv bv bound -> exists N, forall fuel, N <= fuel -> forall c,
  good (fun G => operand unspecified undefined fuel G f bv c) (fun sc c1 => code_args kw sc bv es c c1).
Definition Pb bound f es := forall bv, wf_bv bv bound -> exists N, forall fuel, N <= fuel ->
  good (fun G => body unspecified undefined fuel G f bv [IReturn]) (fun sc c1 => code_body kw sc bv es true [IReturn] c1) /\
  forall c t, (t = true -> c = [IReturn]) ->
  good (fun G => sequence unspecified undefined fuel G f bv c t) (fun sc c1 => code_body kw sc bv es t c c1).
Definition Pl bound f xs es := exists fs fi, fmap fcar f = Some fs /\ fmap fcadr f = Some fi /\ formals fs xs None /\ Ps bound fi es.

Lemma good_bind gen (spec : list (nat * nat) -> code -> Prop) k (spec' : list (nat * nat) -> code -> Prop) : good gen spec ->
  (forall sc0 c1, spec sc0 c1 -> good (fun G => k c1 G) (fun sc c2 => scope_le sc0 sc -> spec' sc c2)) ->
  good (fun G => gbind (gen G) k) spec'.
Proof.
  intros H Hk G W. destruct (H G W) as (G1 & c1 & E1 & X1 & W1 & S1). rewrite E1. cbn.
  destruct (Hk _ _ S1 G1 W1) as (G2 & c2 & E2 & X2 & W2 & S2). exists G2, c2. split; [exact E2|].
  split; [eapply gext_trans; eauto|]. split; [exact W2|]. apply S2. apply X2.
Qed.
Lemma good_ret c (spec : list (nat * nat) -> code -> Prop) : (forall sc, spec sc c) -> good (fun G => GOk c G) spec.
Proof. intros H G W. exists G, c. split; [reflexivity|]. split; [apply gext_refl|]. auto. Qed.
Lemma good_weaken gen (spec spec' : list (nat * nat) -> code -> Prop) : good gen spec -> (forall sc c, spec sc c -> spec' sc c) -> good gen spec'.
Proof. intros H Hs G W. destruct (H G W) as (G1 & c1 & E1 & X1 & W1 & S1). exists G1, c1. auto. Qed.
Lemma good_use fuel p a d bv bound k c t spec : uses kw bound a k -> wf_bv bv bound ->
  good (fun G => generate_syntax unspecified undefined fuel k G d bv c t) spec ->
  good (fun G => generate unspecified undefined (S fuel) G (FPair p a d) bv c t) spec.
Proof.
  intros U B H G W. cbn [generate]. rewrite (proj2 (syntax_of_spec G bv bound a k W B) U). apply H. exact W.
Qed.
Lemma good_call fuel p a d bv bound c (t : bool) spec : (forall k, ~ uses kw bound a k) -> wf_bv bv bound ->
  good (fun G => gbind (generate unspecified undefined fuel G a bv (if t then [ITailCall] else ICall :: c) false)
                       (fun c G => operand unspecified undefined fuel G d bv c)) spec ->
  good (fun G => generate unspecified undefined (S fuel) G (FPair p a d) bv c t) spec.
Proof.
  intros U B H G W. cbn [generate]. rewrite (syntax_of_none G bv bound a W B U). apply H. exact W.
Qed.
Lemma good_identify bv x (k : identity -> genv -> gres) (spec : list (nat * nat) -> code -> Prop) :
  (forall sc0 i, code_of_identity sc0 bv x i -> good (fun G => k i G) (fun sc c2 => scope_le sc0 sc -> spec sc c2)) ->
  good (fun G => let '(i, G) := identify undefined G bv x in k i G) spec.
Proof.
  intros Hk G W. destruct (identify_spec G bv x W) as (i & G1 & E1 & X1 & W1 & S1). rewrite E1.
  destruct (Hk _ _ S1 G1 W1) as (G2 & c2 & E2 & X2 & W2 & S2). exists G2, c2. split; [exact E2|].
  split; [eapply gext_trans; eauto|]. split; [exact W2|]. apply S2. apply X2.
Qed.
Lemma code_of_identity_mono sc sc' bv x i : scope_le sc sc' -> code_of_identity sc bv x i -> code_of_identity sc' bv x i.
Proof. intros L [H|(H & n & Hn & Hi)]; [left|right]; eauto. Qed.
Lemma code_for_mono sc sc' bv e t c c1 : scope_le sc sc' -> code_for kw sc bv e t c c1 -> code_for kw sc' bv e t c c1.
Proof. intros L H. eapply (code_mono kw); eauto. Qed.
Lemma code_args_mono sc sc' bv es c c1 : scope_le sc sc' -> code_args kw sc bv es c c1 -> code_args kw sc' bv es c c1.
Proof. intros L H. eapply (code_mono kw); eauto. Qed.
Lemma code_body_mono sc sc' bv es t c c1 : scope_le sc sc' -> code_body kw sc bv es t c c1 -> code_body kw sc' bv es t c c1.
Proof. intros L H. eapply (code_mono kw); eauto. Qed.
Lemma wf_bv_nil bv : wf_bv bv [] -> bv = [].
Proof. inversion 1; reflexivity. Qed.

Lemma generate_spec :
  (forall bound f e, denotes unspecified kw bound f e -> Pf bound f e) /\
  (forall bound f es, denotess unspecified kw bound f es -> Ps bound f es) /\
  (forall bound f es, denotesb unspecified kw bound f es -> Pb bound f es) /\
  (forall bound f xs es, denotesl unspecified kw bound f xs es -> Pl bound f xs es).
Proof.
  apply denotes_mutind.
  - (* atom *) intros bound v bv B. exists 1. intros fuel Hf c t Ht. destruct fuel; [lia|]. cbn. apply good_ret. intros; constructor.
  - (* id *) intros bound x bv B. exists 1. intros fuel Hf c t Ht. destruct fuel; [lia|]. cbn.
    apply (good_identify bv x (fun i G => GOk (load i c) G)). intros sc0 i Hi. apply good_ret. intros sc L. constructor.
    eapply code_of_identity_mono; eauto.
  - (* quote *) intros bound p a q d r U bv B. exists 2. intros fuel Hf c t Ht. destruct fuel as [|[|fuel]]; try lia. 
    apply (good_use _ p a _ bv bound KQuote _ _ _ U B). cbn. apply good_ret. intros; constructor.
  - (* lambda *) intros bound p a q fs b xs rest es U Hf _ IH bv B.
    destruct (IH (fs :: bv) (WB_cons _ _ _ _ _ Hf B)) as (N & HN). exists (3 + N). intros fuel Hfu c t Ht.
    destruct fuel as [|[|[|fuel]]]; try lia. 
    apply (good_use _ p a _ bv bound KLambda _ _ _ U B).
    cbn [generate_syntax lambda].
    eapply (good_bind _ (fun sc c1 => code_body kw sc (fs :: bv) es true [IReturn] c1)); [apply HN; lia|].
    intros sc0 c1 H. apply good_ret. intros sc L. econstructor; [exact Hf|]. eapply code_body_mono; eauto.
  - (* if *) intros bound p a q1 f1 q2 f2 q3 f3 r e1 e2 e3 U _ IH1 _ IH2 _ IH3 bv B.
    destruct (IH1 bv B) as (N1 & H1), (IH2 bv B) as (N2 & H2), (IH3 bv B) as (N3 & H3).
    exists (2 + (N1 + N2 + N3)). intros fuel Hfu c t Ht. destruct fuel as [|[|fuel]]; try lia. 
    apply (good_use _ p a _ bv bound KIf _ _ _ U B). cbn [generate_syntax].
    eapply good_bind; [apply (H2 fuel ltac:(lia)); intros ->; auto|].
    intros sc1 c1 S1. eapply good_bind; [apply (H3 fuel ltac:(lia)); intros ->; auto|].
    intros sc2 c2 S2. eapply good_weaken; [apply (H1 fuel ltac:(lia)); discriminate|]. cbn beta.
    intros sc c3 S3 L2 L1. eapply CF_if; [| |exact S3]; eapply code_for_mono; [| exact S1 | | exact S2]; eauto using scope_le_trans.
  - (* one-armed if *) intros bound p a q1 f1 q2 f2 e1 e2 U _ IH1 _ IH2 bv B.
    destruct (IH1 bv B) as (N1 & H1), (IH2 bv B) as (N2 & H2).
    exists (2 + (N1 + N2)). intros fuel Hfu c t Ht. destruct fuel as [|[|fuel]]; try lia. 
    apply (good_use _ p a _ bv bound KIf _ _ _ U B). cbn [generate_syntax].
    eapply good_bind; [apply (H2 fuel ltac:(lia)); intros ->; auto|].
    intros sc1 c1 S1.
    apply (good_bind (fun G => GOk [ILoadConstant unspecified; if t then IReturn else IJoin] G)
             (fun sc c2 => code_for kw sc bv (Const unspecified) t (if t then c else [IJoin]) c2)).
    { apply good_ret. intro sc. destruct t; [rewrite (Ht eq_refl)|]; constructor. }
    intros sc2 c2 S2. eapply good_weaken; [apply (H1 fuel ltac:(lia)); discriminate|]. cbn beta.
    intros sc c3 S3 L2 L1. eapply CF_if; [| |exact S3]; eapply code_for_mono; [| exact S1 | | exact S2]; eauto using scope_le_trans.
  - (* set! *) intros bound p a q1 x q2 f r e U _ _ IH bv B. destruct (IH bv B) as (N & H).
    exists (2 + N). intros fuel Hfu c t Ht. destruct fuel as [|[|fuel]]; try lia. 
    apply (good_use _ p a _ bv bound KSet _ _ _ U B). cbn [generate_syntax].
    apply (good_identify bv x (fun i G => generate unspecified undefined fuel G f bv (store i c) false)). intros sc0 i Hi.
    eapply good_weaken; [apply (H fuel ltac:(lia)); discriminate|]. cbn beta. intros sc c1 S1 L.
    econstructor; [eapply code_of_identity_mono; eauto|exact S1].
  - (* define *) intros p a q1 x q2 f r e U Hk _ IH bv B. destruct (IH bv B) as (N & H). apply wf_bv_nil in B as Hbv. subst bv.
    exists (2 + N). intros fuel Hfu c t Ht. destruct fuel as [|[|fuel]]; try lia. 
    apply (good_use _ p a _ [] [] KDefine _ _ _ U B). cbn [generate_syntax].
    apply (good_identify [] x (fun i G => generate unspecified undefined fuel G f [] (store i c) false)). intros sc0 i Hi.
    eapply good_weaken; [apply (H fuel ltac:(lia)); discriminate|]. cbn beta. intros sc c1 S1 L.
    apply (code_of_identity_mono _ _ _ _ _ L) in Hi. destruct Hi as [Hi|(_ & n & Hn & ->)]; [discriminate|].
    econstructor; [exact Hn|exact Hk|exact S1].
  - (* define without expression *) intros p a q1 x U Hk bv B. apply wf_bv_nil in B as Hbv. subst bv.
    exists 3. intros fuel Hfu c t Ht. destruct fuel as [|[|[|fuel]]]; try lia. 
    apply (good_use _ p a _ [] [] KDefine _ _ _ U B). cbn [generate_syntax generate].
    apply (good_identify [] x (fun i G => GOk (ILoadConstant unspecified :: store i c) G)). intros sc0 i Hi.
    apply good_ret. intros sc L.
    apply (code_of_identity_mono _ _ _ _ _ L) in Hi. destruct Hi as [Hi|(_ & n & Hn & ->)]; [discriminate|].
    econstructor; [exact Hn|exact Hk|constructor].
  - (* letrec *) intros bound p a q bs b xs inits es U _ (fs & fi & Efs & Efi & Hf & IHi) _ IHb bv B.
    assert (B' : wf_bv (fs :: bv) (xs :: bound)).
    { replace xs with (xs ++ opt (@None nat)) by apply app_nil_r. constructor; assumption. }
    destruct (IHi _ B') as (N1 & H1), (IHb _ B') as (N2 & H2).
    exists (3 + (N1 + N2)). intros fuel Hfu c t Ht. destruct fuel as [|[|[|fuel]]]; try lia. 
    apply (good_use _ p a _ bv bound KLetrec _ _ _ U B). cbn [generate_syntax]. rewrite Efs, Efi.
    cbn [lambda].
    apply (good_bind _ (fun sc c1 => exists c', c1 = ILoadClosure c' :: (if t then [ITailLetrec] else ILetrec :: c) /\ code_body kw sc (fs :: bv) es true [IReturn] c')).
    { eapply (good_bind _ (fun sc c1 => code_body kw sc (fs :: bv) es true [IReturn] c1)); [apply H2; lia|].
      intros sc0 c1 H. apply good_ret. intros sc L. exists c1. split; [reflexivity|]. eapply code_body_mono; eauto. }
    intros sc1 c1 (c' & -> & S1).
    eapply (good_bind _ (fun sc c2 => code_args kw sc (fs :: bv) inits (ILoadClosure c' :: (if t then [ITailLetrec] else ILetrec :: c)) c2)).
    { apply (H1 (S fuel)). lia. }
    intros sc2 c2 S2. apply good_ret. intros sc L2 L1. eapply CF_letrec; [exact Hf| |exact (code_args_mono _ _ _ _ _ _ L2 S2)].
    eapply code_body_mono; [|exact S1]. eauto using scope_le_trans.
  - (* begin *) intros bound p a b es U _ IH bv B. destruct (IH bv B) as (N & H).
    exists (2 + N). intros fuel Hfu c t Ht. destruct fuel as [|[|fuel]]; try lia. 
    apply (good_use _ p a _ bv bound KBegin _ _ _ U B). cbn [generate_syntax].
    eapply good_weaken; [apply (H fuel ltac:(lia)); exact Ht|]. cbn beta. intros; constructor; assumption.
  - (* call *) intros bound p a d e es U _ IH1 _ IH2 bv B. destruct (IH1 bv B) as (N1 & H1), (IH2 bv B) as (N2 & H2).
    exists (1 + (N1 + N2)). intros fuel Hfu c t Ht. destruct fuel as [|fuel]; try lia. 
    apply (good_call _ p a _ bv bound _ _ _ U B).
    eapply good_bind; [apply (H1 fuel ltac:(lia)); discriminate|].
    intros sc1 c1 S1. eapply good_weaken; [apply (H2 fuel ltac:(lia))|]. cbn beta.
    intros sc c2 S2 L. econstructor; [|exact S2]. eapply code_for_mono; eauto.
  - (* no operand *) intros bound bv B. exists 2. intros fuel Hf c. destruct fuel as [|[|fuel]]; try lia. cbn.
    apply good_ret. intros; constructor.
  - intros bound p a d e es _ IH1 _ IH2 bv B. destruct (IH1 bv B) as (N1 & H1), (IH2 bv B) as (N2 & H2).
    exists (1 + (N1 + N2)). intros fuel Hfu c. destruct fuel as [|fuel]; try lia. cbn [operand].
    eapply good_bind; [apply (H1 fuel ltac:(lia)); discriminate|].
    intros sc1 c1 S1. eapply good_weaken; [apply (H2 fuel ltac:(lia))|]. cbn beta.
    intros sc c2 S2 L. econstructor; [|exact S2]. eapply code_for_mono; eauto.
  - (* last of a body *) intros bound p a e _ IH bv B. destruct (IH bv B) as (N & H).
    exists (1 + N). intros fuel Hfu. destruct fuel as [|fuel]; try lia. cbn [body sequence is_nil]. split.
    + eapply good_weaken; [apply (H fuel ltac:(lia)); auto|]. intros; constructor; assumption.
    + intros c t Ht. eapply good_weaken; [apply (H fuel ltac:(lia)); auto|]. intros; constructor; assumption.
  - (* body *) intros bound p a d e es _ IH1 Hd IH2 bv B. destruct (IH1 bv B) as (N1 & H1), (IH2 bv B) as (N2 & H2).
    exists (1 + (N1 + N2)). intros fuel Hfu. destruct fuel as [|fuel]; try lia. cbn [body sequence].
    assert (Hn : is_nil d = false) by (inversion Hd; reflexivity). rewrite Hn. split.
    + eapply good_bind; [apply (H2 fuel ltac:(lia))|]. intros sc1 c1 S1.
      eapply good_weaken; [apply (H1 fuel ltac:(lia)); discriminate|]. cbn beta. intros sc c2 S2 L.
      apply CB_then with (c1 := c1); [exact (code_body_mono _ _ _ _ _ _ _ L S1)|exact S2].
    + intros c t Ht. eapply good_bind; [apply (H1 fuel ltac:(lia)); discriminate|]. intros sc1 c1 S1.
      eapply good_bind; [apply (H2 fuel ltac:(lia)); exact Ht|]. intros sc2 c2 S2. apply good_ret. intros sc L2 L1.
      apply CB_then with (c1 := c2); [exact (code_body_mono _ _ _ _ _ _ _ L2 S2)|].
      apply (proj1 (code_append kw sc) bv e false [] c1); [|reflexivity].
      eapply code_for_mono; [|exact S1]. eauto using scope_le_trans.
  - (* bindings *) intros bound. exists (FAtom VNil), (FAtom VNil). split; [reflexivity|]. split; [reflexivity|]. split; [constructor|].
    intros bv B. exists 2. intros fuel Hf c. destruct fuel as [|[|fuel]]; try lia. cbn. apply good_ret. intros; constructor.
  - intros bound p q1 x q2 f r d e xs es _ IH1 _ (fs & fi & Efs & Efi & Hf & IH2).
    exists (FPair p (FId x) fs), (FPair p f fi). cbn. rewrite Efs, Efi. split; [reflexivity|]. split; [reflexivity|].
    split; [constructor; exact Hf|]. intros bv B. destruct (IH1 bv B) as (N1 & H1), (IH2 bv B) as (N2 & H2).
    exists (1 + (N1 + N2)). intros fuel Hfu c. destruct fuel as [|fuel]; try lia. cbn [operand].
    eapply good_bind; [apply (H1 fuel ltac:(lia)); discriminate|].
    intros sc1 c1 S1. eapply good_weaken; [apply (H2 fuel ltac:(lia))|]. cbn beta.
    intros sc c2 S2 L. econstructor; [|exact S2]. eapply code_for_mono; eauto.
Qed.
End Generator.
