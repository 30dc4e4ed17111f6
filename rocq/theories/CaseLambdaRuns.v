(** What the expansion of case-lambda computes. *)
From Coq Require Import String List Bool Arith Lia Cantor.
From Verif Require Import SyntaxRules SyntaxRulesSpec Macros MacrosSpec MacrosProofs MacrosEval Guard GuardProofs CaseLambda CaseLambdaProofs.
Import ListNotations.
Local Open Scope nat_scope.
Local Arguments sym : simpl never.
Local Arguments alias : simpl never.
Local Arguments ren : simpl never.

(** ** Aliases *)
Lemma find_fuel {A} (m : nat -> option A) k l x : x <= k -> x <= l -> find_ k m x = find_ l m x.
Proof.
  revert l x. induction k as [|k IH]; intros l x Lk Ll.
  - assert (x = 0) by lia. subst. destruct l; cbn [find_]; destruct (m 0); reflexivity.
  - destruct l as [|l]; [assert (x = 0) by lia; subst; cbn [find_]; destruct (m 0); reflexivity|]. cbn [find_]. destruct (m x); [reflexivity|]. destruct (Nat.even x) eqn:E; [reflexivity|].
    assert (H : snd (of_nat (Nat.div2 x)) < x).
    { destruct (of_nat (Nat.div2 x)) as [u y] eqn:H. cbn [snd]. assert (K : to_nat (u, y) = Nat.div2 x) by (rewrite <- H; apply cancel_to_of).
      assert (Q := to_nat_non_decreasing u y). assert (x <> 0) by (intros ->; discriminate E). assert (Dv := Nat.lt_div2 x ltac:(lia)). lia. }
    apply IH; lia.
Qed.
Lemma find_alias {A} (m : nat -> option A) u x : find m (alias u x) = match m (alias u x) with Some a => Some a | None => find m x end.
Proof.
  unfold find at 1. assert (Lt := alias_lt u x). destruct (alias u x) as [|k] eqn:E; [lia|]. cbn [find_]. rewrite <- E. destruct (m (alias u x)); [reflexivity|].
  assert (O := alias_odd u x). unfold Nat.odd in O. apply negb_true_iff in O. rewrite O, alias_half. unfold find. apply find_fuel; lia.
Qed.
Lemma find_here {A} (m : nat -> option A) x a : m x = Some a -> find m x = Some a.
Proof. intros H. unfold find. destruct x; cbn [find_]; now rewrite H. Qed.
Lemma find_under {A} (m : nat -> option A) u x a : m (alias u x) = None -> m x = Some a -> find m (alias u x) = Some a.
Proof. intros N H. rewrite find_alias, N. now apply find_here. Qed.
Lemma alias_alias u v k l : (alias v (alias u (sym k)) =? alias u (sym l)) = false.
Proof.
  apply Nat.eqb_neq. intros H. apply alias_inj in H as [_ H]. assert (O := alias_odd u (sym k)). rewrite H in O. unfold Nat.odd in O. now rewrite sym_even in O.
Qed.
Lemma is_name2 k u v : is k (alias v (alias u (sym k))).
Proof. split; [constructor; constructor; constructor|apply alias_odd]. Qed.

Section Runs.
Context {value state loc answer : Type}.
Context (user_body : datum -> env loc -> state -> answer -> Prop) (alloc : state -> value -> loc * state) (list_of : state -> list value -> value * state) (error : state -> answer).
Notation runs := (runs value state loc answer user_body alloc list_of error).
Notation takes := (takes value state list_of).
Notation bind := (bind value state loc alloc).
Notation means := (case_lambda_means value state loc answer user_body alloc list_of error).

Lemma form_prepend xs y : formals_form xs (Some y) = prepend (map Id xs) (Id y).
Proof. induction xs; cbn; congruence. Qed.
Lemma form_dlist xs : formals_form xs None = dlist (map Id xs).
Proof. induction xs; cbn; congruence. Qed.
Lemma form_inj f g : form_of f = form_of g -> f = g.
Proof.
  destruct f as [xs r], g as [ys q]. unfold form_of. cbn [required rest]. revert ys. induction xs as [|x xs IH]; intros [|y ys]; cbn [formals_form].
  - destruct r, q; intros H; congruence.
  - destruct r; discriminate.
  - destruct q; discriminate.
  - intros H. injection H as -> H. apply IH in H. congruence.
Qed.
Lemma count_dlist l : count (dlist l) = Some (length l).
Proof. induction l as [|a l IH]; cbn; [reflexivity|now rewrite IH]. Qed.

Variable u : nat.
Variable vs : list value.
Definition M : macros := bound (fun _ => None) (alias u (sym "cl")) (alias u (sym ":::"), inner_rules u).
Definition T : tmps value := bound (bound (fun _ => None) (alias u (sym "args")) (Arguments value vs)) (alias u (sym "len")) (Number value (length vs)).
Lemma find_len v : find T (alias v (alias u (sym "len"))) = Some (Number value (length vs)).
Proof. apply find_under; unfold T, bound; [now rewrite !alias_alias|now rewrite Nat.eqb_refl]. Qed.
Lemma find_args v : find T (alias v (alias u (sym "args"))) = Some (Arguments value vs).
Proof.
  apply find_under; unfold T, bound; [now rewrite !alias_alias|]. rewrite alias_eqb, Nat.eqb_refl. reflexivity.
Qed.
Lemma find_cl v : find M (alias v (alias u (sym "cl"))) = Some (alias u (sym ":::"), inner_rules u).
Proof. apply find_under; unfold M, bound; [now rewrite alias_alias|now rewrite Nat.eqb_refl]. Qed.
(** only cl is a local macro *)
Lemma find_refers x a : find M x = Some a -> a = (alias u (sym ":::"), inner_rules u) /\ is "cl" x.
Proof.
  unfold find. enough (G : forall k x, find_ k M x = Some a -> a = (alias u (sym ":::"), inner_rules u) /\ is "cl" x) by apply G.
  clear x. induction k as [|k IH]; intros x; cbn [find_]; unfold M at 1, bound; destruct (Nat.eqb_spec x (alias u (sym "cl"))) as [->|N].
  1,3: intros [= <-]; split; [reflexivity|apply is_name].
  1: discriminate.
  destruct (Nat.even x) eqn:E; [discriminate|]. intros H. apply IH in H as [-> [H _]]. split; [reflexivity|].
  assert (X : x = alias (fst (of_nat (Nat.div2 x))) (snd (of_nat (Nat.div2 x)))).
  { unfold alias. rewrite <- surjective_pairing, cancel_to_of. assert (O : Nat.odd x = true) by (unfold Nat.odd; now rewrite E). apply Nat.odd_spec in O as [j ->].
    replace (2 * j + 1) with (S (2 * j)) by lia. rewrite Nat.div2_succ_double. lia. }
  split; [|unfold Nat.odd; now rewrite E]. rewrite X. constructor. exact H.
Qed.
Ltac not_local := match goal with H : find M ?x = Some _ |- _ => apply find_refers in H as [_ H]; differ end.
Ltac names := match goal with
  | |- context [Id (alias ?v (alias u (sym ?k)))] => assert (is k (alias v (alias u (sym k)))) by apply is_name2; generalize dependent (alias v (alias u (sym k))); intros
  end.
Notation nn v k := (Id (alias v (alias u (sym k)))).
Lemma run_error_ v r h k s a : is "error" h -> (runs v M T r (dlist [Id h; Other k]) s a <-> a = error s).
Proof.
  intros I. split; [|intros ->; now apply R_error]. intros H. cbn [dlist] in H. inversion H; subst; try differ; [reflexivity|not_local].
Qed.
Lemma run_error v v' r k s a : runs v M T r (dlist [nn v' "error"; Other k]) s a <-> a = error s.
Proof. apply run_error_, is_name2. Qed.
Lemma run_apply_ v r h l x f body s a : is "apply" h -> is "lambda" l -> find T x = Some (Arguments value vs) -> plain body = true ->
  (runs v M T r (dlist [Id h; Pair (Id l) (Pair (form_of f) body); Id x]) s a <->
   exists bs s1 r' s2, takes f vs s bs s1 /\ bind bs r s1 = (r', s2) /\ user_body body r' s2 a).
Proof.
  intros I J G P. split.
  - intros H. cbn [dlist] in H. inversion H; subst; try differ; [|not_local].
    match goal with E : form_of _ = form_of _ |- _ => apply form_inj in E; subst end.
    match goal with E : find T _ = Some _, E' : find T _ = Some _ |- _ => rewrite E in E'; injection E' as E'; subst end. eauto 8.
  - intros (bs & s1 & r' & s2 & X & Y & Z). eapply R_apply; eassumption.
Qed.
Lemma run_apply v v' r f body s a : plain body = true ->
  (runs v M T r (dlist [nn v' "apply"; Pair (nn v' "lambda") (Pair (form_of f) body); nn v' "args"]) s a <->
   exists bs s1 r' s2, takes f vs s bs s1 /\ bind bs r s1 = (r', s2) /\ user_body body r' s2 a).
Proof. apply run_apply_; [apply is_name2|apply is_name2|apply find_args]. Qed.
Lemma run_if_ v r h p x l q o b n e1 e2 ds s a : is "if" h -> is o p -> find T x = Some (Number value (length vs)) -> is "length" l -> is "quote" q ->
  (o = "="%string /\ b = (length vs =? n) \/ o = ">="%string /\ b = (n <=? length vs)) -> count ds = Some n ->
  (runs v M T r (dlist [Id h; dlist [Id p; Id x; dlist [Id l; dlist [Id q; ds]]]; e1; e2]) s a <->
   runs v M T r (if b then e1 else e2) s a).
Proof.
  intros I N G J K O C. split.
  - intros H. cbn [dlist] in H. inversion H; subst; try differ; [|not_local].
    match goal with E : find T _ = Some _, E' : find T _ = Some _ |- _ => rewrite E in E'; injection E' as E'; subst end.
    match goal with E : count _ = Some _, E' : count _ = Some _ |- _ => rewrite E in E'; injection E' as E'; subst end.
    match goal with E : decides _ _ _ _ |- _ => inversion E; subst end; destruct O as [[-> ->]|[-> ->]]; try assumption; differ.
  - intros H. eapply R_if; [exact I|exact J|exact K|exact G|exact C| |exact H]. destruct O as [[-> ->]|[-> ->]]; constructor; exact N.
Qed.
Lemma run_if v v' r o b n e1 e2 ds s a : (o = "="%string /\ b = (length vs =? n) \/ o = ">="%string /\ b = (n <=? length vs)) -> count ds = Some n ->
  (runs v M T r (dlist [nn v' "if"; dlist [nn v' o; nn v' "len"; dlist [nn v' "length"; dlist [nn v' "quote"; ds]]]; e1; e2]) s a <->
   runs v M T r (if b then e1 else e2) s a).
Proof. apply run_if_; [apply is_name2|apply is_name2|apply find_len|apply is_name2|apply is_name2]. Qed.
Lemma run_cl cs : Forall clause_ok cs -> forall v r h s a, find M h = Some (alias u (sym ":::"), inner_rules u) ->
  (runs v M T r (Pair (Id h) (dlist (map clause_form cs))) s a <-> means cs r vs s a).
Proof.
  intros Ok. induction Ok as [|[[xs q] body] cs [_ Pb] Ok IH]; intros v r h s a H; destruct (find_refers _ _ H) as [_ I].
  - transitivity (runs (S v) M T r (dlist [nn v "error"; Other 2]) s a).
    + split; intros X; [inversion X; subst; try differ; rewrite H in *|eapply R_macro; [exact H| |exact X]; now apply inner_none].
      match goal with E : Some _ = Some _ |- _ => injection E as <- <- end. match goal with E : inner_expands _ _ _ _ _ |- _ => apply inner_none in E; subst end. assumption.
    + rewrite run_error. split; [intros ->; constructor|intros X; now inversion X].
  - cbn [snd] in Pb. set (f := Formals xs q).
    assert (S1 : forall d, inner_expands (alias u (sym ":::")) (inner_rules u) v (Pair (Id h) (Pair (Pair (form_of f) (dlist body)) (dlist (map clause_form cs)))) d <->
      d = dlist [nn v "if"; dlist [nn v (match q with None => "=" | Some _ => ">=" end); nn v "len"; dlist [nn v "length"; dlist [nn v "quote"; dlist (map Id xs)]]];
             dlist [nn v "apply"; Pair (nn v "lambda") (Pair (form_of f) (dlist body)); nn v "args"]; Pair (nn v "cl") (dlist (map clause_form cs))]).
    { intros d. unfold f, form_of. cbn [required rest]. destruct q as [y|]; [rewrite form_prepend; apply inner_rest|rewrite form_dlist; apply inner_exact]. }
    set (b := match q with None => length vs =? length xs | Some _ => length xs <=? length vs end).
    assert (A : if b then agrees f (length vs) else ~ agrees f (length vs)).
    { unfold b, agrees, f. cbn [rest required]. destruct q; [destruct (Nat.leb_spec (length xs) (length vs)); lia|destruct (Nat.eqb_spec (length vs) (length xs)); lia]. }
    transitivity (runs (S v) M T r (if b then dlist [nn v "apply"; Pair (nn v "lambda") (Pair (form_of f) (dlist body)); nn v "args"] else Pair (nn v "cl") (dlist (map clause_form cs))) s a).
    + rewrite <- (run_if (S v) v r (match q with None => "=" | Some _ => ">=" end) b (length xs) _ _ (dlist (map Id xs))).
      * split; intros X; [|eapply R_macro; [exact H|apply S1; reflexivity|exact X]].
        cbn [map dlist] in X. inversion X; subst; try differ; rewrite H in *.
        match goal with E : Some _ = Some _ |- _ => injection E as <- <- end. match goal with E : inner_expands _ _ _ _ _ |- _ => apply S1 in E; subst end. assumption.
      * unfold b. destruct q; auto.
      * rewrite count_dlist. now rewrite map_length.
    + destruct b.
      * rewrite run_apply by exact Pb. split; [intros (bs & s1 & r' & s2 & X & Y & Z); eapply CL_this; eassumption|].
        intros X. inversion X; subst; [eauto 8|contradiction].
      * rewrite (IH (S v) r _ s a (find_cl v)). split; [now apply CL_next|]. intros X. inversion X; subst; [contradiction|assumption].
Qed.
End Runs.
Lemma rules_in_form u : rules_in (rules_form u) = inner_rules u.
Proof. reflexivity. Qed.
Lemma find_none {A} x (a : A) : find (fun _ => None) x = Some a -> False.
Proof. unfold find. generalize x at 1. intros k. revert x. induction k as [|k IH]; intros x; cbn [find_]; [discriminate|]. destruct (Nat.even x); [discriminate|apply IH]. Qed.
Lemma outer_ok {value state loc answer : Type}
  (user_body : datum -> env loc -> state -> answer -> Prop) (alloc : state -> value -> loc * state) (list_of : state -> list value -> value * state) (error : state -> answer)
  v r l x h1 y h2 h3 c h4 e rs body vs s a : is "lambda" l -> is "let" h1 -> is "length" h2 -> is "letrec-syntax" h3 -> is "syntax-rules" h4 -> Nat.odd x = true -> Nat.odd y = true -> Nat.odd c = true ->
  (calls value state loc answer user_body alloc list_of error v r
    (dlist [Id l; Id x; dlist [Id h1; dlist [dlist [Id y; dlist [Id h2; Id x]]]; dlist [Id h3; dlist [dlist [Id c; Pair (Id h4) (Pair (Id e) (Pair Nil rs))]]; body]]]) vs s a <->
   runs value state loc answer user_body alloc list_of error v (bound (fun _ => None) c (e, rules_in rs)) (bound (bound (fun _ => None) x (Arguments value vs)) y (Number value (length vs))) r body s a).
Proof.
  intros I1 I2 I3 I4 I5 O1 O2 O3.
  assert (Find : find (bound (fun _ : nat => None) x (Arguments value vs)) x = Some (Arguments value vs)).
  { apply find_here. unfold bound. now rewrite Nat.eqb_refl. }
  split.
  - intros H. cbn [dlist] in H. inversion H; subst.
    match goal with R : runs _ _ _ _ _ _ _ _ _ _ _ _ _ _ _ |- _ => inversion R; subst end; try differ; [|exfalso; eapply find_none; eassumption].
    match goal with E : find _ _ = Some _, E' : find _ _ = Some _ |- _ => rewrite E in E'; injection E' as E'; subst end.
    match goal with R : runs _ _ _ _ _ _ _ _ _ _ (bound _ _ (Number _ _)) _ _ _ _ |- _ => inversion R; subst end; try differ; [|exfalso; eapply find_none; eassumption].
    assumption.
  - intros H. apply C_lambda; [exact I1|exact O1|]. eapply R_let; [exact I2|exact I3|exact O2|exact Find|].
    eapply R_syntax; [exact I4|exact I5|exact O3|]. exact H.
Qed.
Theorem case_lambda_ok {value state loc answer : Type}
  (user_body : datum -> env loc -> state -> answer -> Prop) (alloc : state -> value -> loc * state) (list_of : state -> list value -> value * state) (error : state -> answer) u kw cs :
  Forall clause_ok cs -> exists d, expands case_lambda_text u (case_lambda_form kw cs) d /\
    forall r vs s a, calls value state loc answer user_body alloc list_of error (S u) r d vs s a <->
      case_lambda_means value state loc answer user_body alloc list_of error cs r vs s a.
Proof.
  intros Ok. eexists. split; [apply case_lambda_1|]. intros r vs s a.
  rewrite <- (run_cl user_body alloc list_of error u vs cs Ok (S u) r (alias u (sym "cl")) s a) by (apply find_here; unfold M, bound; now rewrite Nat.eqb_refl).
  rewrite outer_ok by (first [apply is_name|apply alias_odd]). rewrite rules_in_form. reflexivity.
Qed.
