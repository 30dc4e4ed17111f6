(** * Proofs about syntax-rules: C61, C62 *)
From Coq Require Import List Arith Lia Bool.
From Verif Require Import SyntaxRules SyntaxRulesSpec.
Import ListNotations.
Open Scope nat_scope.

(** ** Evaluation *)
Lemma bind_ok {A B} (r : outcome A) (f : A -> outcome B) y : bind r f = Ok y -> exists x, r = Ok x /\ f x = Ok y.
Proof. destruct r; cbn; intros H; try discriminate. eauto. Qed.
(** More fuel changes nothing but [Out] *)
Definition below {A} (r s : outcome A) : Prop := r = Out \/ r = s.
Lemma below_refl {A} (r : outcome A) : below r r. Proof. now right. Qed.
Lemma below_bind {A B} (r s : outcome A) (f g : A -> outcome B) :
  below r s -> (forall x, below (f x) (g x)) -> below (bind r f) (bind s g).
Proof. intros [-> | ->] H; [now left |]. destruct s; cbn; auto using below_refl. Qed.
Lemma below_gather {A B} (f g : A -> outcome B) l : (forall x, below (f x) (g x)) -> below (gather (map f l)) (gather (map g l)).
Proof.
  intros H. induction l as [|x l IH]; cbn [map gather]; [apply below_refl |].
  apply below_bind; [apply H | intros y]. apply below_bind; [exact IH | intros z; apply below_refl].
Qed.
Section Evaluation.
  Variables (rename : datum -> datum) (compare : datum -> datum -> bool) (global : var -> datum).
  Notation eval := (eval rename compare global).
  Lemma eval_step n env e : below (eval n env e) (eval (S n) env e).
  Proof.
    revert env e. induction n as [|n IH]; intros env e; [now left |].
    change (eval (S (S n)) env e) with (ltac:(let t := eval cbn [SyntaxRules.eval] in (SyntaxRules.eval rename compare global (S (S n)) env e) in exact t)).
    destruct e; cbn [SyntaxRules.eval].
    - apply below_refl.
    - apply below_refl.
    - apply below_bind; [apply below_gather; intros; apply IH | intros ds; apply IH].
    - apply below_bind; [apply below_gather; intros; apply IH | intros ds; apply IH].
    - apply below_bind; [apply below_gather; intros; apply IH | intros ds].
      destruct (lookup l env) as [[d | ps b env'] |]; try apply below_refl. apply IH.
    - apply below_bind; [apply IH | intros d; apply IH].
    - apply below_bind; [apply IH | intros d]. destruct (truth d); [apply IH | apply below_refl].
    - apply below_bind; [apply IH | intros d]. destruct (truth d); [apply below_refl | apply IH].
    - apply below_bind; [apply IH | intros d; apply below_refl].
    - apply below_bind; [apply IH | intros x]. apply below_bind; [apply IH | intros y; apply below_refl].
    - apply below_bind; [apply IH | intros d; apply below_refl].
    - apply below_bind; [apply IH | intros x]. apply below_bind; [apply IH | intros y; apply below_refl].
    - apply below_bind; [apply below_gather; intros; apply IH | intros ds]. apply below_bind; [apply below_refl | intros ls].
      apply below_bind; [apply below_gather; intros; apply IH | intros l; apply below_refl].
    - apply below_refl.
  Qed.
  Lemma eval_more n m env e r : eval n env e = r -> r <> Out -> n <= m -> eval m env e = r.
  Proof.
    intros H R L. induction L as [|m L IH]; [exact H |].
    destruct (eval_step m env e) as [E | E]; rewrite IH in E; [contradiction | now rewrite <- E].
  Qed.
  Definition gives (env : environment) (e : expr) (r : outcome datum) : Prop := r <> Out /\ exists n, eval n env e = r.
  Lemma gives_at env e r : gives env e r -> exists n, forall m, n <= m -> eval m env e = r.
  Proof. intros [R [n H]]. exists n. intros m L. now apply (eval_more n). Qed.
  Lemma gives_intro env e r n : r <> Out -> eval n env e = r -> gives env e r.
  Proof. intros R H. split; eauto. Qed.
  Lemma gives_all env es ds : Forall2 (fun e d => gives env e (Ok d)) es ds ->
    exists n, forall m, n <= m -> gather (map (eval m env) es) = Ok ds.
  Proof.
    induction 1 as [|e d es ds H Hs IH].
    - exists 0. reflexivity.
    - apply gives_at in H as [n1 H]. destruct IH as [n2 IH]. exists (n1 + n2). intros m L. cbn [map gather].
      rewrite H by lia. cbn. rewrite IH by lia. reflexivity.
  Qed.
  Lemma gives_var env x d : lookup x env = Some (Datum d) -> gives env (EVar x) (Ok d).
  Proof. intros H. apply (gives_intro _ _ _ 1); [discriminate |]. cbn. now rewrite H. Qed.
  Lemma gives_quote env d : gives env (EQuote d) (Ok d).
  Proof. apply (gives_intro _ _ _ 1); [discriminate | reflexivity]. Qed.
  Lemma gives_let env bs b ds r : Forall2 (fun e d => gives env e (Ok d)) (map snd bs) ds ->
    gives (extend (map fst bs) ds env) b r -> gives env (ELet bs b) r.
  Proof.
    intros H G. pose proof (proj1 G) as R. apply gives_all in H as [n1 H]. apply gives_at in G as [n2 G].
    apply (gives_intro _ _ _ (S (n1 + n2))); [exact R |]. cbn [SyntaxRules.eval]. rewrite H by lia. cbn. apply G. lia.
  Qed.
  Lemma gives_loop env l bs b ds r : Forall2 (fun e d => gives env e (Ok d)) (map snd bs) ds ->
    gives (extend (map fst bs) ds ((l, Loop (map fst bs) b env) :: env)) b r -> gives env (ELoop l bs b) r.
  Proof.
    intros H G. pose proof (proj1 G) as R. apply gives_all in H as [n1 H]. apply gives_at in G as [n2 G].
    apply (gives_intro _ _ _ (S (n1 + n2))); [exact R |]. cbn [SyntaxRules.eval]. rewrite H by lia. cbn. apply G. lia.
  Qed.
  Lemma gives_call env l es ds ps b env' r : Forall2 (fun e d => gives env e (Ok d)) es ds -> lookup l env = Some (Loop ps b env') ->
    gives (extend ps ds ((l, Loop ps b env') :: env')) b r -> gives env (ECall l es) r.
  Proof.
    intros H K G. pose proof (proj1 G) as R. apply gives_all in H as [n1 H]. apply gives_at in G as [n2 G].
    apply (gives_intro _ _ _ (S (n1 + n2))); [exact R |]. cbn [SyntaxRules.eval]. rewrite H by lia. cbn. rewrite K. apply G. lia.
  Qed.
  Lemma gives_if env c a b d r : gives env c (Ok d) -> gives env (if truth d then a else b) r -> gives env (EIf c a b) r.
  Proof.
    intros H G. pose proof (proj1 G) as R. apply gives_at in H as [n1 H]. apply gives_at in G as [n2 G].
    apply (gives_intro _ _ _ (S (n1 + n2))); [exact R |]. cbn [SyntaxRules.eval]. rewrite H by lia. cbn. apply G. lia.
  Qed.
  Lemma gives_and env a b r : gives env a (Ok (Bool true)) -> gives env b r -> gives env (EAnd a b) r.
  Proof.
    intros H G. pose proof (proj1 G) as R. apply gives_at in H as [n1 H]. apply gives_at in G as [n2 G].
    apply (gives_intro _ _ _ (S (n1 + n2))); [exact R |]. cbn [SyntaxRules.eval]. rewrite H by lia. cbn. apply G. lia.
  Qed.
  Lemma gives_and_false env a b : gives env a (Ok (Bool false)) -> gives env (EAnd a b) (Ok (Bool false)).
  Proof.
    intros H. apply gives_at in H as [n1 H].
    apply (gives_intro _ _ _ (S n1)); [discriminate |]. cbn [SyntaxRules.eval]. rewrite H by lia. reflexivity.
  Qed.
  Lemma gives_or env a b d : truth d = true -> gives env a (Ok d) -> gives env (EOr a b) (Ok d).
  Proof.
    intros T H. apply gives_at in H as [n1 H].
    apply (gives_intro _ _ _ (S n1)); [discriminate |]. cbn [SyntaxRules.eval]. rewrite H by lia. cbn. now rewrite T.
  Qed.
  Lemma gives_or_false env a b r : gives env a (Ok (Bool false)) -> gives env b r -> gives env (EOr a b) r.
  Proof.
    intros H G. pose proof (proj1 G) as R. apply gives_at in H as [n1 H]. apply gives_at in G as [n2 G].
    apply (gives_intro _ _ _ (S (n1 + n2))); [exact R |]. cbn [SyntaxRules.eval]. rewrite H by lia. cbn. apply G. lia.
  Qed.
  Lemma gives_1 env p a x y : gives env a (Ok x) -> apply1 p x = Ok y -> gives env (E1 p a) (Ok y).
  Proof.
    intros H G. apply gives_at in H as [n1 H].
    apply (gives_intro _ _ _ (S n1)); [discriminate |]. cbn [SyntaxRules.eval]. rewrite H by lia. exact G.
  Qed.
  Lemma gives_2 env p a b x y z : gives env a (Ok x) -> gives env b (Ok y) -> apply2 p x y = Ok z -> gives env (E2 p a b) (Ok z).
  Proof.
    intros H G K. apply gives_at in H as [n1 H]. apply gives_at in G as [n2 G].
    apply (gives_intro _ _ _ (S (n1 + n2))); [discriminate |]. cbn [SyntaxRules.eval]. rewrite H by lia. cbn [bind]. rewrite G by lia. exact K.
  Qed.
  Lemma gives_rename env a x : gives env a (Ok x) -> gives env (ERename a) (Ok (rename x)).
  Proof.
    intros H. apply gives_at in H as [n1 H].
    apply (gives_intro _ _ _ (S n1)); [discriminate |]. cbn [SyntaxRules.eval]. rewrite H by lia. reflexivity.
  Qed.
  Lemma gives_compare env a b x y : gives env a (Ok x) -> gives env b (Ok y) -> gives env (ECompare a b) (Ok (Bool (compare x y))).
  Proof.
    intros H G. apply gives_at in H as [n1 H]. apply gives_at in G as [n2 G].
    apply (gives_intro _ _ _ (S (n1 + n2))); [discriminate |]. cbn [SyntaxRules.eval]. rewrite H by lia. cbn [bind]. rewrite G by lia. reflexivity.
  Qed.
  Lemma proper_dlist l : proper (dlist l) = Some l.
  Proof. induction l as [|x l IH]; cbn; [reflexivity | now rewrite IH]. Qed.
  Lemma gives_map env vs b es ls ds :
    Forall2 (fun e l => gives env e (Ok (dlist l))) es ls ->
    Forall2 (fun row d => gives (extend vs row env) b (Ok d)) (map_rows ls) ds ->
    gives env (EMap vs b es) (Ok (dlist ds)).
  Proof.
    intros H G.
    assert (A : exists n, forall m, n <= m -> gather (map (eval m env) es) = Ok (map dlist ls)).
    { apply gives_all. clear G. induction H; cbn [map]; constructor; auto. }
    assert (B : gather (map (fun d => on_list d Ok) (map dlist ls)) = Ok ls).
    { clear. induction ls as [|l ls IH]; [reflexivity |]. cbn [map gather]. unfold on_list at 1. rewrite proper_dlist. cbn. now rewrite IH. }
    assert (C : exists n, forall m, n <= m -> gather (map (fun row => eval m (extend vs row env) b) (map_rows ls)) = Ok ds).
    { clear -G. induction G as [|row d rows ds H Hs IH].
      - exists 0. reflexivity.
      - apply gives_at in H as [n1 H]. destruct IH as [n2 IH]. exists (n1 + n2). intros m L. cbn [map gather].
        rewrite H by lia. cbn. rewrite IH by lia. reflexivity. }
    destruct A as [n1 A], C as [n2 C].
    apply (gives_intro _ _ _ (S (n1 + n2))); [discriminate |]. cbn [SyntaxRules.eval]. rewrite A by lia. cbn [bind].
    rewrite B. cbn [bind]. rewrite C by lia. reflexivity.
  Qed.
End Evaluation.

(** ** Trees and bindings *)
Lemma equal_true x y : equal x y = true <-> x = y.
Proof.
  revert y. induction x; destruct y; cbn; split; intros H; try discriminate; try reflexivity.
  - apply Nat.eqb_eq in H. now subst.
  - injection H as ->. apply Nat.eqb_refl.
  - apply andb_true_iff in H as [H1 H2]. apply IHx1 in H1. apply IHx2 in H2. now subst.
  - injection H as -> ->. apply andb_true_iff. split; [now apply IHx1 | now apply IHx2].
  - apply IHx in H. now subst.
  - injection H as ->. now apply IHx.
  - apply eqb_prop in H. now subst.
  - injection H as ->. apply eqb_reflx.
  - apply Nat.eqb_eq in H. now subst.
  - injection H as ->. apply Nat.eqb_refl.
  - apply Nat.eqb_eq in H. now subst.
  - injection H as ->. apply Nat.eqb_refl.
Qed.
Lemma equal_same x y : equal x y = same x y.
Proof.
  unfold same. match goal with |- context [if ?t then _ else _] => destruct t as [E | E] end.
  - now apply equal_true.
  - destruct (equal x y) eqn:F; [|reflexivity]. now apply equal_true in F.
Qed.
Lemma length_star_pairs x : length_star x = pairs x.
Proof. induction x; cbn; congruence. Qed.
Lemma var_eqb_eq x y : var_eqb x y = true <-> x = y.
Proof.
  destruct x, y; cbn; split; intros H; try discriminate; try reflexivity.
  - apply Nat.eqb_eq in H. now subst.
  - injection H as ->. apply Nat.eqb_refl.
  - apply Nat.eqb_eq in H. now subst.
  - injection H as ->. apply Nat.eqb_refl.
Qed.
Lemma var_eqb_neq x y : x <> y -> var_eqb x y = false.
Proof. intros N. destruct (var_eqb x y) eqn:E; [|reflexivity]. now apply var_eqb_eq in E. Qed.
Lemma var_eqb_refl x : var_eqb x x = true. Proof. now apply var_eqb_eq. Qed.
(** What a sequence is for the compiled procedure: a list *)
Fixpoint image (b : binding) : datum := match b with One d => d | Many l => dlist (map image l) end.
Fixpoint uniform (n : nat) (b : binding) : Prop :=
  match n, b with
  | 0, One _ => True
  | S n, Many l => Forall (uniform n) l
  | _, _ => False
  end.
Lemma depth_in_app i l m : depth_in i (l ++ m) = match depth_in i l with Some n => Some n | None => depth_in i m end.
Proof. induction l as [|[y n] l IH]; cbn; [reflexivity |]. destruct (i =? y); [reflexivity | exact IH]. Qed.
Lemma depth_in_none i l : depth_in i l = None <-> ~ In i (map fst l).
Proof.
  induction l as [|[y n] l IH]; cbn; [tauto |]. destruct (Nat.eqb_spec i y) as [-> | N].
  - split; [discriminate | tauto].
  - rewrite IH. split; [intros H [E | H']; [now subst | now apply H] | tauto].
Qed.
Lemma get_app s t x : get (s ++ t) x = match get s x with Some b => Some b | None => get t x end.
Proof. induction s as [|[y b] s IH]; cbn; [reflexivity |]. destruct (x =? y); [reflexivity | exact IH]. Qed.
Lemma get_none s x : get s x = None <-> ~ In x (map fst s).
Proof.
  induction s as [|[y b] s IH]; cbn; [tauto |]. destruct (Nat.eqb_spec x y) as [-> | N].
  - split; [discriminate | tauto].
  - rewrite IH. split; [intros H [E | H']; [now subst | now apply H] | tauto].
Qed.
Lemma get_in s x b : get s x = Some b -> In x (map fst s).
Proof.
  intros H. destruct (in_dec Nat.eq_dec x (map fst s)) as [I | N]; [exact I |]. apply get_none in N. congruence.
Qed.
Lemma get_some s x : In x (map fst s) -> exists b, get s x = Some b.
Proof. intros H. destruct (get s x) as [b |] eqn:E; [eauto |]. now apply get_none in E. Qed.
Lemma NoDup_app_parts {A} (l m : list A) : NoDup (l ++ m) -> NoDup l /\ NoDup m /\ (forall x, In x l -> In x m -> False).
Proof.
  induction l as [|a l IH]; cbn; intros H.
  - split; [apply NoDup_nil | split; [exact H | intros x []]].
  - inversion H as [|b k N D]; subst. destruct (IH D) as [H1 [H2 H3]]. repeat split; auto.
    + constructor; [|exact H1]. intros I. apply N, in_or_app. now left.
    + intros x [<- | I] J; [apply N, in_or_app; now right | now apply (H3 x)].
Qed.
Lemma NoDup_app_intro {A} (l m : list A) : NoDup l -> NoDup m -> (forall x, In x l -> In x m -> False) -> NoDup (l ++ m).
Proof.
  induction l as [|a l IH]; cbn; intros H1 H2 H3; [exact H2 |]. inversion H1 as [|b k N D]; subst. constructor.
  - intros I. apply in_app_or in I as [I | I]; [contradiction | apply (H3 a); auto].
  - apply IH; auto. intros x I J. apply (H3 x); auto.
Qed.
Lemma every_spec {A} (l : list (option A)) : match every l with Some r => Forall2 (fun o x => o = Some x) l r | None => In None l end.
Proof.
  induction l as [|[x |] l IH]; cbn; [constructor | | now left].
  destruct (every l); [now constructor | now right].
Qed.
(** Lists of data *)
Lemma dlist_elements l : elements (dlist l) = l.
Proof. induction l; cbn; congruence. Qed.
Lemma dlist_pairs l : pairs (dlist l) = length l.
Proof. induction l; cbn; congruence. Qed.
Lemma dlist_after l : after (length l) (dlist l) = Nil.
Proof. induction l; cbn; [reflexivity | assumption]. Qed.
Lemma proper_spec d : match proper d with Some l => d = dlist l | None => after (pairs d) d <> Nil end.
Proof.
  induction d; cbn; try discriminate; [reflexivity |]. destruct (proper d2); [now subst | exact IHd2].
Qed.
Lemma elements_length d : length (elements d) = pairs d.
Proof. induction d; cbn; auto. Qed.

(** ** Environments *)
Definition data (env : environment) : Prop := forall i, match lookup (User i) env with Some (Loop _ _ _) => False | _ => True end.
Definition changed (X : list nat) (c c1 : nat) (x : var) : Prop :=
  match x with User i => In i X | Fresh n => c < n <= c1 | Expr => False | _ => True end.
Definition agree (X : list nat) (c c1 : nat) (env env' : environment) : Prop :=
  data env' /\ forall x, ~ changed X c c1 x -> lookup x env' = lookup x env.
Lemma agree_refl X c c1 env : data env -> agree X c c1 env env.
Proof. intros D. split; [exact D | reflexivity]. Qed.
Lemma changed_weaken X Y c c1 a b x : incl X Y -> a <= c -> c1 <= b -> changed X c c1 x -> changed Y a b x.
Proof. destruct x; cbn; intros; auto. lia. Qed.
Lemma agree_trans X Y Z c c1 a b c0 c2 env env' env'' :
  agree X c c1 env env' -> agree Y a b env' env'' -> incl X Z -> incl Y Z -> c0 <= c -> c0 <= a -> c1 <= c2 -> b <= c2 ->
  agree Z c0 c2 env env''.
Proof.
  intros [D1 H1] [D2 H2] I1 I2 L1 L2 L3 L4. split; [exact D2 |]. intros x N. rewrite H2, H1; [reflexivity | |].
  - intros C. apply N. apply (changed_weaken X Z c c1); auto.
  - intros C. apply N. apply (changed_weaken Y Z a b); auto.
Qed.
Lemma agree_weaken X Y c c1 a b env env' : agree X c c1 env env' -> incl X Y -> a <= c -> c1 <= b -> agree Y a b env env'.
Proof. intros A I L1 L2. split; [apply A |]. intros x N. apply A. intros C. apply N. apply (changed_weaken X Y c c1); auto. Qed.
Lemma lookup_cons x y s env : lookup x ((y, s) :: env) = if var_eqb x y then Some s else lookup x env.
Proof. reflexivity. Qed.
Lemma lookup_extend xs ds env x : ~ In x xs -> lookup x (extend xs ds env) = lookup x env.
Proof.
  unfold extend. revert ds. induction xs as [|y xs IH]; intros ds N; [reflexivity |]. destruct ds as [|d ds]; [reflexivity |].
  cbn. rewrite var_eqb_neq; [|intros ->; apply N; now left]. apply IH. intros H. apply N. now right.
Qed.
Lemma data_extend xs ds env : data env -> data (extend xs ds env).
Proof.
  unfold extend. intros D. revert ds. induction xs as [|y xs IH]; intros ds; [exact D |]. destruct ds as [|d ds]; [exact D |].
  intros i. cbn [combine map app lookup]. destruct (var_eqb (User i) y); [exact Logic.I |]. apply IH.
Qed.
Lemma data_fresh n s env : data env -> data ((Fresh n, s) :: env).
Proof. intros D i. cbn. apply D. Qed.
(** A variable among others, bound to the element in its place *)
Lemma lookup_extend_nth xs ds env j x d : NoDup xs -> nth_error xs j = Some x -> nth_error ds j = Some d ->
  lookup x (extend xs ds env) = Some (Datum d).
Proof.
  unfold extend. revert ds j. induction xs as [|y xs IH]; intros ds j N Hx Hd; [destruct j; discriminate |].
  destruct ds as [|e ds]; [destruct j; discriminate |]. inversion N as [|z zs N1 N2]; subst.
  destruct j as [|j]; cbn in Hx, Hd.
  - injection Hx as ->. injection Hd as ->. cbn. now rewrite var_eqb_refl.
  - cbn. rewrite var_eqb_neq; [|intros ->; apply N1; eapply nth_error_In; eauto]. eapply IH; eauto.
Qed.

(** ** Patterns *)
Section Patterns.
  Variable cmp : datum -> datum -> bool.
  Variables underscore ellipsis lits : datum.
  Hypothesis ellipsis_identifier : forall e, cmp ellipsis e = true -> identifier e = true.
  Variables (rename : datum -> datum) (compare : datum -> datum -> bool) (global : var -> datum).
  Notation dots_ := (cmp ellipsis).
  Let lit (x : nat) : bool := existsb (cmp (Id x)) (elements lits).
  Let blank (x : nat) : bool := cmp (Id x) underscore.
  Let fits (x : nat) (d : datum) : bool := compare d (rename (Id x)).
  Notation starts := (starts dots_).
  Notation variables := (variables dots_ lit blank).
  Notation matching := (matching dots_ lit blank fits).
  Notation careful_pattern := (careful_pattern dots_ lit).
  Notation gives := (gives rename compare global).
  Notation all_vars := (all_vars cmp ellipsis lits).
  Notation expand_pattern := (expand_pattern cmp underscore ellipsis lits).
  Lemma literal_spec x : literal cmp lits (Id x) = lit x.
  Proof. unfold literal, lit. induction lits as [| | a _ d IH | | | |]; cbn; try reflexivity. now rewrite IH. Qed.
  Lemma followed_pair a q : followed cmp ellipsis (Pair a q) = starts q.
  Proof. destruct q; reflexivity. Qed.
  Lemma pattern_ind (P : datum -> Prop) :
    (forall x, P (Id x)) -> P Nil -> (forall l, P l -> P (Vec l)) -> (forall b, P (Bool b)) -> (forall n, P (Int n)) ->
    (forall n, P (Other n)) ->
    (forall a e r, dots_ e = true -> P a -> P r -> P (Pair a (Pair e r))) ->
    (forall a q, starts q = false -> P a -> P q -> P (Pair a q)) -> forall p, P p.
  Proof.
    intros H1 H2 H3 H4 H5 H6 H7 H8. fix F 1. intros [x | | a q | l | b | n | n];
      [apply H1 | exact H2 | | apply H3, F | apply H4 | apply H5 | apply H6].
    destruct (starts q) eqn:E; [|apply H8; [exact E | apply F | apply F]].
    destruct q as [x | | e r | l | b | n | n]; try discriminate. apply H7; [exact E | apply F | apply F].
  Qed.
  Lemma variables_ellipsis a e r : dots_ e = true -> variables (Pair a (Pair e r)) = variables a ++ variables r.
  Proof. intros H. cbn. now rewrite H. Qed.
  Lemma variables_pair a q : starts q = false -> variables (Pair a q) = variables a ++ variables q.
  Proof. intros H. cbn [SyntaxRulesSpec.variables]. now rewrite H. Qed.
  (** Depths of the variables *)
  Fixpoint depths (p : datum) (dim : nat) : list (nat * nat) :=
    match p with
    | Id x => if lit x || blank x then [] else [(x, dim)]
    | Pair a q => if starts q then depths a (S dim) ++ match q with Pair _ r => depths r dim | _ => [] end else depths a dim ++ depths q dim
    | Vec l => depths l dim
    | _ => []
    end.
  Lemma depths_ellipsis a e r dim : dots_ e = true -> depths (Pair a (Pair e r)) dim = depths a (S dim) ++ depths r dim.
  Proof. intros H. cbn. now rewrite H. Qed.
  Lemma depths_pair a q dim : starts q = false -> depths (Pair a q) dim = depths a dim ++ depths q dim.
  Proof. intros H. cbn [depths]. now rewrite H. Qed.
  Lemma depths_variables p : forall dim, map fst (depths p dim) = variables p.
  Proof.
    induction p as [x | | l IH | b | n | n | a e r H IHa IHr | a q H IHa IHq] using pattern_ind; intros dim; try reflexivity.
    - cbn. now destruct (lit x || blank x).
    - apply IH.
    - rewrite depths_ellipsis, variables_ellipsis, map_app, IHa, IHr by exact H. reflexivity.
    - rewrite depths_pair, variables_pair, map_app, IHa, IHq by exact H. reflexivity.
  Qed.
  Lemma all_vars_ellipsis a e r dim vars : dots_ e = true -> all_vars (Pair a (Pair e r)) dim vars = all_vars a (S dim) (all_vars r dim vars).
  Proof. intros H. cbn. now rewrite H. Qed.
  Lemma all_vars_pair a q dim vars : starts q = false -> all_vars (Pair a q) dim vars = all_vars a dim (all_vars q dim vars).
  Proof. intros H. cbn [SyntaxRules.all_vars]. rewrite followed_pair. now rewrite H. Qed.
  Lemma all_vars_app p : forall dim vars, all_vars p dim vars = all_vars p dim [] ++ vars.
  Proof.
    induction p as [x | | l IH | b | n | n | a e r H IHa IHr | a q H IHa IHq] using pattern_ind; intros dim vars; try reflexivity.
    - cbn. rewrite literal_spec. now destruct (lit x).
    - apply IH.
    - rewrite !all_vars_ellipsis by exact H. rewrite IHa, IHr, (IHa (S dim) (all_vars r dim [])). now rewrite app_assoc.
    - rewrite !all_vars_pair by exact H. rewrite IHa, IHq, (IHa dim (all_vars q dim [])). now rewrite app_assoc.
  Qed.
  Lemma all_vars_depths p : forall i dim, blank i = false -> depth_in i (all_vars p dim []) = depth_in i (depths p dim).
  Proof.
    induction p as [x | | l IH | b | n | n | a e r H IHa IHr | a q H IHa IHq] using pattern_ind; intros i dim B; try reflexivity.
    - cbn. rewrite literal_spec. destruct (lit x); [reflexivity |]. destruct (blank x) eqn:E; [|reflexivity]. cbn.
      destruct (Nat.eqb_spec i x) as [-> | N]; [congruence | reflexivity].
    - apply IH, B.
    - rewrite all_vars_ellipsis, depths_ellipsis, all_vars_app, !depth_in_app, IHa, IHr by assumption. reflexivity.
    - rewrite all_vars_pair, depths_pair, all_vars_app, !depth_in_app, IHa, IHq by assumption. reflexivity.
  Qed.
  Definition names (p : datum) : list nat := map fst (all_vars p 0 []).
  Lemma names_dim p : forall dim, map fst (all_vars p dim []) = names p.
  Proof.
    unfold names. induction p as [x | | l IH | b | n | n | a e r H IHa IHr | a q H IHa IHq] using pattern_ind; intros dim; try reflexivity.
    - cbn. now destruct (literal cmp lits (Id x)).
    - apply IH.
    - rewrite !all_vars_ellipsis by exact H. rewrite (all_vars_app a), (all_vars_app a 1), !map_app, IHa, IHr, (IHa 1). reflexivity.
    - rewrite !all_vars_pair by exact H. rewrite (all_vars_app a), (all_vars_app a 0), !map_app, IHa, IHq. reflexivity.
  Qed.
  Lemma names_ellipsis a e r : dots_ e = true -> names (Pair a (Pair e r)) = names a ++ names r.
  Proof.
    intros H. unfold names at 1. rewrite all_vars_ellipsis, all_vars_app, map_app, !names_dim by exact H. reflexivity.
  Qed.
  Lemma names_pair a q : starts q = false -> names (Pair a q) = names a ++ names q.
  Proof.
    intros H. unfold names at 1. rewrite all_vars_pair, all_vars_app, map_app, !names_dim by exact H. reflexivity.
  Qed.
  Lemma names_variables p y : In y (names p) -> In y (variables p) \/ blank y = true.
  Proof.
    intros H. destruct (blank y) eqn:B; [now right | left].
    destruct (in_dec Nat.eq_dec y (variables p)) as [I | N]; [exact I | exfalso].
    rewrite <- (depths_variables p 0) in N. apply depth_in_none in N. rewrite <- all_vars_depths in N by exact B.
    apply depth_in_none in N. now apply N.
  Qed.
  Lemma variables_blank p y : In y (variables p) -> blank y = false.
  Proof.
    induction p as [x | | l IH | b | n | n | a e r H IHa IHr | a q H IHa IHq] using pattern_ind; try (intros []; fail).
    - cbn. destruct (lit x); [intros [] |]. cbn. destruct (blank x) eqn:E; [intros [] |]. intros [<- | []]. exact E.
    - exact IH.
    - rewrite variables_ellipsis, in_app_iff by exact H. tauto.
    - rewrite variables_pair, in_app_iff by exact H. tauto.
  Qed.
  Lemma variables_names p y : In y (variables p) -> In y (names p).
  Proof.
    intros H. pose proof (variables_blank p y H) as B.
    destruct (in_dec Nat.eq_dec y (names p)) as [I | N]; [exact I | exfalso].
    unfold names in N. apply depth_in_none in N. rewrite all_vars_depths in N by exact B. apply depth_in_none in N.
    rewrite depths_variables in N. contradiction.
  Qed.
  (** What matching binds *)
  Lemma matching_ellipsis a e r d : dots_ e = true -> matching (Pair a (Pair e r)) d =
    (if pairs r <=? pairs d then
       match every (map (matching a) (firstn (pairs d - pairs r) (elements d))) with
       | Some ss => both (Some (sequences (variables a) ss)) (matching r (after (pairs d - pairs r) d))
       | None => None
       end
     else None).
  Proof. intros H. cbn [SyntaxRulesSpec.matching SyntaxRulesSpec.starts]. now rewrite H. Qed.
  Lemma matching_pair a q d : starts q = false -> matching (Pair a q) d = match d with Pair x y => both (matching a x) (matching q y) | _ => None end.
  Proof. intros H. cbn [SyntaxRulesSpec.matching]. now rewrite H. Qed.
  Lemma both_some r s t : both r s = Some t -> exists r' s', r = Some r' /\ s = Some s' /\ t = r' ++ s'.
  Proof. destruct r, s; cbn; intros H; try discriminate. injection H as <-. eauto. Qed.
  Lemma matching_keys p : forall d s, matching p d = Some s -> map fst s = variables p.
  Proof.
    induction p as [x | | l IH | b | n | n | a e r H IHa IHr | a q H IHa IHq] using pattern_ind; intros d s E.
    - cbn in *. destruct (lit x); [destruct (fits x d); now inversion E |]. destruct (blank x); inversion E; reflexivity.
    - cbn in *. destruct (same d Nil); now inversion E.
    - cbn in *. destruct d; try discriminate. now apply IH in E.
    - cbn in *. destruct (same d _); now inversion E.
    - cbn in *. destruct (same d _); now inversion E.
    - cbn in *. destruct (same d _); now inversion E.
    - rewrite matching_ellipsis in E by exact H. rewrite variables_ellipsis by exact H.
      destruct (pairs r <=? pairs d); [|discriminate]. destruct (every _) as [ss |]; [|discriminate].
      apply both_some in E as [s1 [s2 [E1 [E2 ->]]]]. injection E1 as <-. rewrite map_app, (IHr _ _ E2). f_equal.
      unfold sequences. rewrite map_map. cbn. apply map_id.
    - rewrite matching_pair in E by exact H. rewrite variables_pair by exact H. destruct d; try discriminate.
      apply both_some in E as [s1 [s2 [E1 [E2 ->]]]]. rewrite map_app, (IHa _ _ E1), (IHq _ _ E2). reflexivity.
  Qed.
  Lemma get_depth s ks x b k (R : binding -> nat -> Prop) :
    Forall2 (fun e f => fst e = fst f /\ R (snd e) (snd f)) s ks -> get s x = Some b -> depth_in x ks = Some k -> R b k.
  Proof.
    induction 1 as [|[y b'] [z k'] s ks [E H] Hs IH]; cbn; [discriminate |]. cbn in E, H. subst z.
    destruct (x =? y); [|exact IH]. intros B K. injection B as ->. injection K as ->. exact H.
  Qed.
  Lemma depths_lower p : forall dim x k, In (x, k) (depths p dim) -> dim <= k.
  Proof.
    induction p as [x | | l IH | b | n | n | a e r H IHa IHr | a q H IHa IHq] using pattern_ind; intros dim y k I; try contradiction.
    - cbn in I. destruct (lit x || blank x); [contradiction |]. destruct I as [E | []]. injection E as -> ->. lia.
    - now apply IH in I.
    - rewrite depths_ellipsis, in_app_iff in I by exact H. destruct I as [I | I]; [apply IHa in I; lia | now apply IHr in I].
    - rewrite depths_pair, in_app_iff in I by exact H. destruct I as [I | I]; [now apply IHa in I | now apply IHq in I].
  Qed.
  Lemma depth_in_unique l x k : NoDup (map fst l) -> In (x, k) l -> depth_in x l = Some k.
  Proof.
    induction l as [|[y j] l IH]; cbn; [tauto |]. intros N. inversion N as [|z zs N1 N2]; subst. intros [E | I].
    - injection E as -> ->. now rewrite Nat.eqb_refl.
    - destruct (Nat.eqb_spec x y) as [-> | M]; [|now apply IH]. exfalso. apply N1. apply (in_map fst) in I. exact I.
  Qed.
  Definition shaped (s : bindings) (ks : list (nat * nat)) (dim : nat) : Prop :=
    Forall2 (fun e f => fst e = fst f /\ uniform (snd f - dim) (snd e)) s ks.
  Lemma matching_uniform p : forall d s dim, NoDup (variables p) -> matching p d = Some s -> shaped s (depths p dim) dim.
  Proof.
    unfold shaped.
    induction p as [x | | l IH | b | n | n | a e r H IHa IHr | a q H IHa IHq] using pattern_ind; intros d s dim N E.
    - cbn in *. destruct (lit x); [destruct (fits x d); inversion E; constructor |]. cbn. destruct (blank x); inversion E; [constructor |].
      constructor; [|constructor]. cbn. rewrite Nat.sub_diag. now split.
    - cbn in *. destruct (same d Nil); inversion E; constructor.
    - cbn in *. destruct d; try discriminate. now apply IH with (d := d).
    - cbn in *. destruct (same d _); inversion E; constructor.
    - cbn in *. destruct (same d _); inversion E; constructor.
    - cbn in *. destruct (same d _); inversion E; constructor.
    - rewrite matching_ellipsis in E by exact H. rewrite variables_ellipsis in N by exact H. rewrite depths_ellipsis by exact H.
      apply NoDup_app_parts in N as [Na [Nr _]].
      destruct (pairs r <=? pairs d); [|discriminate]. pose proof (every_spec (map (matching a) (firstn (pairs d - pairs r) (elements d)))) as S0.
      destruct (every _) as [ss |]; [|discriminate].
      apply both_some in E as [s1 [s2 [E1 [E2 ->]]]]. injection E1 as <-. apply Forall2_app; [|now apply IHr with (d := after (pairs d - pairs r) d)].
      assert (U : Forall (fun s => shaped s (depths a (S dim)) (S dim) /\ map fst s = variables a) ss).
      { clear -S0 IHa Na. remember (map _ _) as l eqn:El. revert El. generalize (firstn (pairs d - pairs r) (elements d)).
        induction S0 as [|o s l ss Ho Hs IH]; intros ds El; [constructor |]. destruct ds as [|d0 ds]; [discriminate |].
        cbn in El. injection El as -> El. constructor; [split; [apply IHa with (d := d0); auto | now apply matching_keys with (d := d0)] | now apply (IH ds)]. }
      assert (G : forall l, incl l (depths a (S dim)) ->
        Forall2 (fun e f => fst e = fst f /\ uniform (snd f - dim) (snd e))
          (map (fun x => (x, Many (map (fun s => match get s x with Some b => b | None => One Nil end) ss))) (map fst l)) l).
      { induction l as [|[x k] l IH]; intros I; cbn; [constructor |]. constructor; [|apply IH; intros y Hy; apply I; now right].
        cbn. split; [reflexivity |].
        assert (Ix : In (x, k) (depths a (S dim))) by (apply I; now left).
        assert (L := depths_lower a _ _ _ Ix).
        rewrite <- (depths_variables a (S dim)) in Na. assert (Kx := depth_in_unique _ _ _ Na Ix).
        replace (k - dim) with (S (k - S dim)) by lia. cbn. clear -U Kx Ix. induction U as [|s ss [Us Ks] _ IH]; cbn; [constructor |]. constructor; [|exact IH].
        assert (Hx : In x (map fst s)) by (rewrite Ks, <- (depths_variables a (S dim)); change x with (fst (x, k)); now apply in_map).
        apply get_some in Hx as [b Hb]. rewrite Hb.
        exact (get_depth s (depths a (S dim)) x b k (fun b k => uniform (k - S dim) b) Us Hb Kx). }
      unfold sequences. rewrite <- (depths_variables a (S dim)). apply G. intros y Hy. exact Hy.
    - rewrite matching_pair in E by exact H. rewrite variables_pair in N by exact H. rewrite depths_pair by exact H.
      apply NoDup_app_parts in N as [Na [Nq _]]. destruct d; try discriminate.
      apply both_some in E as [s1 [s2 [E1 [E2 ->]]]]. apply Forall2_app; [now apply IHa with (d := d1) | now apply IHq with (d := d2)].
  Qed.
  (** The compiler, case by case *)
  Definition continuation := list (nat * nat) -> nat -> outcome (expr * nat).
  Definition later (k : continuation) : Prop := forall vars c e c', k vars c = Ok (e, c') -> c <= c'.
  Lemma pattern_cases p :
    (exists x, p = Id x) \/ p = Nil \/ (exists l, p = Vec l) \/
    (match p with Bool _ | Int _ | Other _ => True | _ => False end) \/
    (exists a e r, p = Pair a (Pair e r) /\ dots_ e = true /\ r <> Nil) \/
    (exists i e, p = Pair (Id i) (Pair e Nil) /\ dots_ e = true) \/
    (exists a e, p = Pair a (Pair e Nil) /\ dots_ e = true /\ identifier a = false) \/
    (exists a q, p = Pair a q /\ starts q = false).
  Proof.
    destruct p as [x | | a q | l | b | n | n]; eauto 10.
    destruct (starts q) eqn:E; [|eauto 12]. destruct q as [x | | e r | l | b | n | n]; try discriminate. cbn in E.
    destruct r as [x | | y z | l | b | n | n]; [| | | | | |].
    2: { destruct a as [i | | y z | l | b | n | n]; [eauto 12 | | | | | |]; do 6 right; left; eexists; eexists; repeat split; auto. }
    all: do 4 right; left; eexists; eexists; eexists; repeat split; auto; discriminate.
  Qed.
  Lemma expand_tail fuel a e r x dim vars (k : continuation) c : dots_ e = true -> r <> Nil ->
    expand_pattern (S fuel) (Pair a (Pair e r)) x dim vars k c =
    if any (fun x => identifier x && cmp x ellipsis) r then Bad
    else
      do '(b, c') <- expand_pattern fuel (Pair r (Pair (Pair a (Pair e Nil)) Nil))
             (E2 Cons (EVar Ls) (E2 Cons (E1 Reverse (EVar Res)) (EQuote Nil))) dim vars k (S (S c));
      Ok (ELet [(Fresh (S c), x)]
           (ELet [(Len, E1 Length (EVar (Fresh (S c))))]
             (EAnd (E2 AtLeast (EVar Len) (EQuote (Int (length_star r))))
                   (ELoop (Fresh (S (S c))) [(Ls, EVar (Fresh (S c))); (I, E2 Minus (EVar Len) (EQuote (Int (length_star r)))); (Res, EQuote Nil)]
                      (EIf (E2 AtLeast (EQuote (Int 0)) (EVar I)) b
                           (ECall (Fresh (S (S c))) [E1 Cdr (EVar Ls); E2 Minus (EVar I) (EQuote (Int 1));
                                     E2 Cons (E1 Car (EVar Ls)) (EVar Res)]))))), c').
  Proof.
    intros H N. cbn [SyntaxRules.expand_pattern followed cdr car]. rewrite H.
    destruct r as [y | | y z | l | b | n | n]; try contradiction; (destruct (any _ _); [reflexivity |]);
      (destruct (expand_pattern fuel _ _ _ _ _ _) as [[b' c'] | | |]; reflexivity).
  Qed.
  Lemma expand_sequence fuel i e x dim vars (k : continuation) c : dots_ e = true ->
    expand_pattern (S fuel) (Pair (Id i) (Pair e Nil)) x dim vars k c =
    do '(b, c') <- k ((i, S dim) :: vars) (S c);
    Ok (ELet [(Fresh (S c), x)] (EAnd (E1 IsList (EVar (Fresh (S c)))) (ELet [(User i, EVar (Fresh (S c)))] b)), c').
  Proof.
    intros H. cbn [SyntaxRules.expand_pattern followed cdr car]. rewrite H. destruct (k _ _) as [[b' c'] | | |]; reflexivity.
  Qed.
  Definition loop_call (w l : var) (vs : list (nat * nat)) (ys : list var) : expr :=
    ECall l (E1 Cdr (EVar w) :: map (fun '((x, _), y) => E2 Cons (EVar (User x)) (EVar y)) (combine vs ys)).
  Definition loop_body (w : var) (vs : list (nat * nat)) (ys : list var) (b once : expr) : expr :=
    EIf (E1 IsNull (EVar w)) (ELet (map (fun '((x, _), y) => (User x, E1 Reverse (EVar y))) (combine vs ys)) b) (EAnd (E1 IsPair (EVar w)) once).
  Lemma expand_loop fuel a e x dim vars (k : continuation) c : dots_ e = true -> identifier a = false ->
    expand_pattern (S fuel) (Pair a (Pair e Nil)) x dim vars k c =
    let vs := all_vars a (S dim) [] in
    let ys := next_symbols (S (S (S c))) (length vs) in
    do '(once, c') <- expand_pattern fuel a (E1 Car (EVar (Fresh (S (S c))))) (S dim) []
         (fun _ c' => Ok (loop_call (Fresh (S (S c))) (Fresh (S (S (S c)))) vs ys, c')) (S (S (S c)) + length vs);
    do '(b, c') <- k (vs ++ vars) c';
    Ok (ELet [(Fresh (S c), x)]
         (ELoop (Fresh (S (S (S c)))) ((Fresh (S (S c)), EVar (Fresh (S c))) :: map (fun y => (y, EQuote Nil)) ys)
            (loop_body (Fresh (S (S c))) vs ys b once)), c').
  Proof.
    intros H N. cbn [SyntaxRules.expand_pattern followed cdr car]. rewrite H.
    destruct a as [y | | y z | l | b | n | n]; try discriminate; unfold loop_call, loop_body;
      (destruct (expand_pattern fuel _ _ _ _ _ _) as [[b' c'] | | |]; [|reflexivity ..]);
      (cbn [bind]; destruct (k _ _) as [[b'' c''] | | |]; reflexivity).
  Qed.
  Lemma expand_pair fuel a q x dim vars (k : continuation) c : starts q = false ->
    expand_pattern (S fuel) (Pair a q) x dim vars k c =
    do '(b, c') <- expand_pattern fuel a (E1 Car (EVar (Fresh (S c)))) dim vars
         (fun vars c' => expand_pattern fuel q (E1 Cdr (EVar (Fresh (S c)))) dim vars k c') (S c);
    Ok (ELet [(Fresh (S c), x)] (EAnd (E1 IsPair (EVar (Fresh (S c)))) b), c').
  Proof.
    intros H. cbn [SyntaxRules.expand_pattern]. rewrite followed_pair, H.
    destruct (expand_pattern fuel a _ _ _ _ _) as [[b' c'] | | |]; reflexivity.
  Qed.
  Lemma bind_pair {A} (r : outcome (expr * nat)) (f : expr * nat -> outcome A) y : bind r f = Ok y ->
    exists e c, r = Ok (e, c) /\ f (e, c) = Ok y.
  Proof. destruct r as [[e c] | | |]; cbn; intros H; try discriminate. eauto. Qed.
  Lemma expand_later fuel : forall p x dim vars (k : continuation) c e c', later k ->
    expand_pattern fuel p x dim vars k c = Ok (e, c') -> c < c'.
  Proof.
    induction fuel as [|fuel IH]; intros p x dim vars k c e c' L H; [discriminate |].
    destruct (pattern_cases p) as [[i ->] | [-> | [[l ->] | [K | [[a [el [r [-> [E N]]]]] | [[i [el [-> E]]] | [[a [el [-> [E N]]]] | [a [q [-> E]]]]]]]]]].
    - cbn [SyntaxRules.expand_pattern] in H. apply bind_pair in H as [e1 [c1 [H E1]]]. injection E1 as <- <-.
      destruct (literal cmp lits (Id i)).
      + apply bind_pair in H as [e2 [c2 [H E2]]]. injection E2 as <- <-. apply L in H. lia.
      + destruct (cmp (Id i) underscore); [apply L in H; lia |].
        apply bind_pair in H as [e2 [c2 [H E2]]]. injection E2 as <- <-. apply L in H. lia.
    - cbn [SyntaxRules.expand_pattern] in H. apply bind_pair in H as [e1 [c1 [H E1]]]. injection E1 as <- <-.
      apply bind_pair in H as [e2 [c2 [H E2]]]. injection E2 as <- <-. apply L in H. lia.
    - cbn [SyntaxRules.expand_pattern] in H. apply bind_pair in H as [e1 [c1 [H E1]]]. injection E1 as <- <-.
      apply bind_pair in H as [e2 [c2 [H E2]]]. injection E2 as <- <-. apply IH in H; [lia | exact L].
    - destruct p; try contradiction; cbn [SyntaxRules.expand_pattern] in H; apply bind_pair in H as [e1 [c1 [H E1]]]; injection E1 as <- <-;
      (apply bind_pair in H as [e2 [c2 [H E2]]]; injection E2 as <- <-; apply L in H; lia).
    - rewrite expand_tail in H by assumption. destruct (any _ r); [discriminate |].
      apply bind_pair in H as [e2 [c2 [H E2]]]. injection E2 as <- <-. apply IH in H; [lia | exact L].
    - rewrite expand_sequence in H by assumption. apply bind_pair in H as [e2 [c2 [H E2]]]. injection E2 as <- <-. apply L in H. lia.
    - rewrite expand_loop in H by assumption. cbv zeta in H.
      apply bind_pair in H as [e2 [c2 [H E2]]]. apply bind_pair in E2 as [e3 [c3 [H3 E3]]]. injection E3 as <- <-. apply L in H3.
      apply IH in H; [lia |]. intros vs c0 e0 c0' E0. injection E0 as <- <-. lia.
    - rewrite expand_pair in H by assumption. apply bind_pair in H as [e2 [c2 [H E2]]]. injection E2 as <- <-.
      apply IH in H; [lia |]. intros vs c0 e0 c0' E0. apply IH in E0; [lia | exact L].
  Qed.
  (** What the compiled code of a pattern does: with x standing for d it goes on with ek, the variables of the pattern
      bound, if d matches, and gives #f otherwise *)
  Definition compiled (p : datum) (x : expr) (c : nat) (e ek : expr) (c1 : nat) : Prop :=
    forall env d, data env -> gives env x (Ok d) ->
    match matching p d with
    | Some s => forall v,
        (forall env', agree (names p) c c1 env env' ->
           (forall y b, get s y = Some b -> lookup (User y) env' = Some (Datum (image b))) -> gives env' ek (Ok v)) ->
        gives env e (Ok v)
    | None => gives env e (Ok (Bool false))
    end.
  Definition pattern_correct (fuel : nat) : Prop := forall p x dim vars (k : continuation) c e c',
    later k -> expand_pattern fuel p x dim vars k c = Ok (e, c') -> careful_pattern p = true -> NoDup (variables p) ->
    exists bs c1 ek c2, k (bs ++ vars) c1 = Ok (ek, c2) /\ c < c1 /\ c1 <= c2 /\ c2 <= c' /\
      (forall i, blank i = false -> depth_in i bs = depth_in i (depths p dim)) /\ compiled p x c e ek c1.
  Lemma gives_let1 env y x d b r : gives env x (Ok d) -> gives ((y, Datum d) :: env) b r -> gives env (ELet [(y, x)] b) r.
  Proof. intros H G. apply gives_let with (ds := [d]); [now constructor | exact G]. Qed.
  Lemma lookup_same y s env : lookup y ((y, s) :: env) = Some s.
  Proof. cbn. now rewrite var_eqb_refl. Qed.
  Lemma agree_fresh X c c1 n s env : data env -> c < n <= c1 -> agree X c c1 env ((Fresh n, s) :: env).
  Proof.
    intros D L. split; [now apply data_fresh |]. intros x N. rewrite lookup_cons, var_eqb_neq; [reflexivity |]. intros ->. apply N. exact L.
  Qed.
  Lemma agree_user X c c1 i d env : data env -> In i X -> agree X c c1 env ((User i, Datum d) :: env).
  Proof.
    intros D L. split.
    - intros j. cbn. destruct (j =? i); [exact Logic.I |]. apply D.
    - intros x N. rewrite lookup_cons, var_eqb_neq; [reflexivity |]. intros ->. apply N. exact L.
  Qed.
  Lemma careful_ellipsis a e r : dots_ e = true -> careful_pattern (Pair a (Pair e r)) = true ->
    (match a with Id x => lit x = false | _ => True end) /\ careful_pattern a = true /\ careful_pattern r = true.
  Proof.
    intros H C. cbn [SyntaxRulesSpec.careful_pattern SyntaxRulesSpec.starts] in C. rewrite H in C.
    apply andb_true_iff in C as [C1 C3]. apply andb_true_iff in C1 as [C1 C2]. repeat split; auto.
    destruct a; auto. now apply negb_true_iff in C1.
  Qed.
  Lemma careful_pair a q : starts q = false -> careful_pattern (Pair a q) = true -> careful_pattern a = true /\ careful_pattern q = true.
  Proof. intros H C. cbn [SyntaxRulesSpec.careful_pattern] in C. rewrite H in C. now apply andb_true_iff in C. Qed.
  Lemma every_id i l : lit i = false -> every (map (matching (Id i)) l) = Some (map (fun d => if blank i then [] else [(i, One d)]) l).
  Proof.
    intros H. induction l as [|d l IH]; [reflexivity |]. cbn [map every]. cbn [SyntaxRulesSpec.matching] in *. rewrite H in *.
    destruct (blank i); rewrite IH; reflexivity.
  Qed.
  Lemma same_nil d : same d Nil = true <-> d = Nil.
  Proof. rewrite <- equal_same. apply equal_true. Qed.
  Lemma firstn_elements d : firstn (pairs d - 0) (elements d) = elements d.
  Proof. rewrite Nat.sub_0_r, <- elements_length. apply firstn_all. Qed.
  Lemma image_sequence (f : datum -> bindings) x l : (forall d, get (f d) x = Some (One d)) ->
    image (Many (map (fun s => match get s x with Some b => b | None => One Nil end) (map f l))) = dlist l.
  Proof. intros H. cbn. f_equal. rewrite !map_map. erewrite map_ext; [apply map_id |]. intros d. now rewrite H. Qed.
  (** *** Single identifiers followed by an ellipsis *)
  Lemma sequence_compiled i el x c ek c1 : dots_ el = true -> lit i = false -> S c <= c1 ->
    compiled (Pair (Id i) (Pair el Nil)) x c
      (ELet [(Fresh (S c), x)] (EAnd (E1 IsList (EVar (Fresh (S c)))) (ELet [(User i, EVar (Fresh (S c)))] ek))) ek c1.
  Proof.
    intros E L Lc env d D X. rewrite matching_ellipsis by exact E. cbn [pairs Nat.leb]. rewrite firstn_elements, every_id by exact L.
    rewrite Nat.sub_0_r. cbn [SyntaxRulesSpec.matching]. pose proof (proper_spec d) as P.
    destruct (same (after (pairs d) d) Nil) eqn:S0.
    - apply same_nil in S0. destruct (proper d) as [l |] eqn:Pl; [|contradiction]. cbn [both]. intros v G.
      apply gives_let1 with (d := d); [exact X |]. apply gives_and.
      { apply gives_1 with (x := d); [apply gives_var; apply lookup_same |]. cbn [apply1]. now rewrite Pl. }
      apply gives_let1 with (d := d); [apply gives_var; apply lookup_same |]. apply G.
      + assert (In i (names (Pair (Id i) (Pair el Nil)))).
        { rewrite names_ellipsis by exact E. cbn. rewrite literal_spec. rewrite L. now left. }
        apply agree_trans with (X := []) (c := c) (c1 := c1) (Y := [i]) (a := c1) (b := c1) (env' := (Fresh (S c), Datum d) :: env); try lia.
        * apply agree_fresh; [exact D | lia].
        * apply agree_user; [now apply data_fresh | now left].
        * intros z [].
        * intros z [<- | []]. assumption.
      + intros y b Hy. rewrite app_nil_r in Hy. unfold sequences in Hy. cbn [SyntaxRulesSpec.variables] in Hy. rewrite L in Hy. cbn [orb] in Hy.
        destruct (blank i) eqn:B; [discriminate |]. cbn [map get] in Hy. destruct (Nat.eqb_spec y i) as [-> | N]; [|discriminate].
        injection Hy as <-. rewrite lookup_same. f_equal. f_equal. subst d. rewrite dlist_elements.
        symmetry. apply (image_sequence (fun d => [(i, One d)])). intros d. cbn. now rewrite Nat.eqb_refl.
    - cbn [both]. apply gives_let1 with (d := d); [exact X |]. apply gives_and_false.
      apply gives_1 with (x := d); [apply gives_var; apply lookup_same |]. cbn [apply1]. destruct (proper d) as [l |]; [|reflexivity].
      exfalso. subst d. rewrite dlist_pairs, dlist_after in S0. now assert (same Nil Nil = true) by now apply same_nil.
  Qed.
  (** *** Patterns after an ellipsis *)
  Definition tail_body (l : var) (b : expr) : expr :=
    EIf (E2 AtLeast (EQuote (Int 0)) (EVar I)) b
        (ECall l [E1 Cdr (EVar Ls); E2 Minus (EVar I) (EQuote (Int 1)); E2 Cons (E1 Car (EVar Ls)) (EVar Res)]).
  Lemma tail_loop l b env0 r : let envL := (Fresh l, Loop [Ls; I; Res] (tail_body (Fresh l) b) env0) :: env0 in
    forall m ls acc, m <= pairs ls ->
    gives (extend [Ls; I; Res] [after m ls; Int 0; dlist (rev (firstn m (elements ls)) ++ acc)] envL) b r ->
    gives (extend [Ls; I; Res] [ls; Int m; dlist acc] envL) (tail_body (Fresh l) b) r.
  Proof.
    intros envL. induction m as [|m IH]; intros ls acc L G.
    - unfold tail_body. eapply gives_if.
      + eapply gives_2; [apply gives_quote | apply gives_var; reflexivity | reflexivity].
      + exact G.
    - destruct ls as [| | a d | | | |]; cbn in L; try lia.
      unfold tail_body at 1. eapply gives_if.
      + eapply gives_2; [apply gives_quote | apply gives_var; reflexivity | reflexivity].
      + cbn [Nat.leb truth]. eapply gives_call.
        * constructor; [eapply gives_1; [apply gives_var; reflexivity | reflexivity] |].
          constructor; [eapply gives_2; [apply gives_var; reflexivity | apply gives_quote | reflexivity] |].
          constructor; [eapply gives_2; [eapply gives_1; [apply gives_var; reflexivity | reflexivity] | apply gives_var; reflexivity | reflexivity] |].
          constructor.
        * cbn. rewrite Nat.eqb_refl. reflexivity.
        * cbn [Nat.sub]. rewrite Nat.sub_0_r. apply (IH d (a :: acc)); [lia |].
          cbn [after elements firstn rev] in G. rewrite <- app_assoc in G. exact G.
  Qed.
  Definition swapped (a e r : datum) : datum := Pair r (Pair (Pair a (Pair e Nil)) Nil).
  Lemma starts_swapped a e : starts (Pair (Pair a (Pair e Nil)) Nil) = false.
  Proof. cbn. destruct (dots_ _) eqn:E; [|reflexivity]. apply ellipsis_identifier in E. discriminate. Qed.
  Lemma matching_swapped a e r fs rest : dots_ e = true ->
    matching (swapped a e r) (Pair rest (Pair (dlist fs) Nil)) =
    match every (map (matching a) fs), matching r rest with
    | Some ss, Some s => Some (s ++ (sequences (variables a) ss ++ []) ++ [])
    | _, _ => None
    end.
  Proof.
    intros E. unfold swapped. rewrite matching_pair by apply starts_swapped. rewrite matching_pair by reflexivity.
    rewrite matching_ellipsis by exact E. cbn [pairs Nat.leb]. rewrite firstn_elements, dlist_elements, Nat.sub_0_r, dlist_pairs, dlist_after.
    cbn [SyntaxRulesSpec.matching]. assert (S0 : same Nil Nil = true) by now apply same_nil. rewrite S0. clear S0.
    destruct (every _) as [ss |]; destruct (matching r rest) as [s |]; reflexivity.
  Qed.
  Lemma names_swapped a e r : dots_ e = true -> names (swapped a e r) = names r ++ (names a ++ []) ++ [].
  Proof.
    intros E. unfold swapped. rewrite names_pair by apply starts_swapped. rewrite names_pair by reflexivity. rewrite names_ellipsis by exact E. reflexivity.
  Qed.
  Lemma data_own env y s : match y with User _ => False | _ => True end -> data env -> data ((y, s) :: env).
  Proof. intros H D i. rewrite lookup_cons. destruct y; [contradiction | | | | | |]; apply D. Qed.
  Lemma tail_compiled a e r x c b ek c1 : dots_ e = true -> NoDup (variables (Pair a (Pair e r))) -> S (S c) <= c1 ->
    compiled (swapped a e r) (E2 Cons (EVar Ls) (E2 Cons (E1 Reverse (EVar Res)) (EQuote Nil))) (S (S c)) b ek c1 ->
    compiled (Pair a (Pair e r)) x c
      (ELet [(Fresh (S c), x)]
        (ELet [(Len, E1 Length (EVar (Fresh (S c))))]
          (EAnd (E2 AtLeast (EVar Len) (EQuote (Int (length_star r))))
                (ELoop (Fresh (S (S c))) [(Ls, EVar (Fresh (S c))); (I, E2 Minus (EVar Len) (EQuote (Int (length_star r)))); (Res, EQuote Nil)]
                   (tail_body (Fresh (S (S c))) b))))) ek c1.
  Proof.
    intros E N Lc K env d D X. rewrite matching_ellipsis by exact E. rewrite variables_ellipsis in N by exact E.
    apply NoDup_app_parts in N as [_ [_ N]].
    set (env1 := (Fresh (S c), Datum d) :: env). set (env2 := (Len, Datum (Int (pairs d))) :: env1).
    assert (W : forall f q, gives env2 f q -> gives env (ELet [(Fresh (S c), x)] (ELet [(Len, E1 Length (EVar (Fresh (S c))))] f)) q).
    { intros f q H. apply gives_let1 with (d := d); [exact X |]. apply gives_let1 with (d := Int (pairs d)); [|exact H].
      eapply gives_1; [apply gives_var, lookup_same |]. cbn [apply1]. now rewrite length_star_pairs. }
    assert (T : gives env2 (E2 AtLeast (EVar Len) (EQuote (Int (length_star r)))) (Ok (Bool (pairs r <=? pairs d)))).
    { eapply gives_2; [apply gives_var; reflexivity | apply gives_quote |]. cbn [apply2]. now rewrite length_star_pairs. }
    destruct (pairs r <=? pairs d) eqn:L; [|apply W, gives_and_false; exact T]. apply Nat.leb_le in L.
    set (m := pairs d - pairs r). fold m.
    set (envL := (Fresh (S (S c)), Loop [Ls; I; Res] (tail_body (Fresh (S (S c))) b) env2) :: env2).
    set (fs := firstn m (elements d)). set (rest := after m d).
    set (env4 := extend [Ls; I; Res] [rest; Int 0; dlist (rev fs ++ [])] envL).
    assert (V : forall q, gives env4 b q -> gives env2 (EAnd (E2 AtLeast (EVar Len) (EQuote (Int (length_star r))))
                (ELoop (Fresh (S (S c))) [(Ls, EVar (Fresh (S c))); (I, E2 Minus (EVar Len) (EQuote (Int (length_star r)))); (Res, EQuote Nil)]
                   (tail_body (Fresh (S (S c))) b))) q).
    { intros q H. apply gives_and; [exact T |]. apply gives_loop with (ds := [d; Int m; Nil]).
      - constructor; [apply gives_var; unfold env2; rewrite lookup_cons; apply lookup_same |].
        constructor; [eapply gives_2; [apply gives_var; reflexivity | apply gives_quote |]; cbn [apply2]; rewrite (length_star_pairs r); reflexivity |].
        constructor; [apply gives_quote | constructor].
      - apply (tail_loop (S (S c)) b env2 q m d []); [unfold m; lia | exact H]. }
    assert (D4 : data env4).
    { apply data_extend. apply data_fresh. apply data_own; [exact Logic.I |]. now apply data_fresh. }
    assert (X4 : gives env4 (E2 Cons (EVar Ls) (E2 Cons (E1 Reverse (EVar Res)) (EQuote Nil))) (Ok (Pair rest (Pair (dlist fs) Nil)))).
    { eapply gives_2; [apply gives_var; reflexivity | eapply gives_2; [eapply gives_1; [apply gives_var; reflexivity |] | apply gives_quote | reflexivity] | reflexivity].
      cbn [apply1]. unfold on_list. rewrite proper_dlist, app_nil_r, rev_involutive. reflexivity. }
    specialize (K env4 _ D4 X4). rewrite matching_swapped in K by exact E.
    pose proof (every_spec (map (matching a) fs)) as Ev.
    destruct (every (map (matching a) fs)) as [ss |]; [|apply W, V, K].
    destruct (matching r rest) as [s |] eqn:Mr; cbn [both]; [|apply W, V, K].
    intros v G. apply W, V, K. intros env' Ag Hb. apply G.
    - apply agree_trans with (X := []) (c := c) (c1 := S (S c)) (Y := names (swapped a e r)) (a := S (S c)) (b := c1) (env' := env4); try lia.
      + split; [exact D4 |]. intros y C. unfold env4. rewrite lookup_extend.
        * unfold envL, env2, env1. rewrite !lookup_cons, !var_eqb_neq; [reflexivity | | |]; intros ->; apply C; cbn; auto; lia.
        * intros [<- | [<- | [<- | []]]]; apply C; exact Logic.I.
      + exact Ag.
      + intros z [].
      + rewrite names_swapped, names_ellipsis by exact E. intros z. rewrite !in_app_iff. cbn. tauto.
    - intros y b' Hy. apply Hb. rewrite !get_app in *. cbn [get] in *. destruct (get (sequences (variables a) ss) y) as [b0 |] eqn:G1.
      + injection Hy as <-. destruct (get s y) as [b1 |] eqn:G2; [exfalso | reflexivity].
        apply get_in in G1. apply get_in in G2. rewrite (matching_keys r _ _ Mr) in G2. unfold sequences in G1. rewrite map_map in G1. cbn in G1.
        rewrite map_id in G1. now apply (N y).
      + now rewrite Hy.
  Qed.
  (** *** Other patterns followed by an ellipsis *)
  Lemma next_symbols_length c k : length (next_symbols c k) = k.
  Proof. revert c. induction k; intros c; cbn; auto. Qed.
  Lemma next_symbols_nth c k j : j < k -> nth_error (next_symbols c k) j = Some (Fresh (S c + j)).
  Proof.
    revert c j. induction k as [|k IH]; intros c j L; [lia |]. destruct j as [|j]; cbn; [do 2 f_equal; lia |].
    rewrite IH by lia. do 2 f_equal. lia.
  Qed.
  Lemma next_symbols_in c k y : In y (next_symbols c k) -> exists n, y = Fresh n /\ c < n <= c + k.
  Proof.
    intros H. apply In_nth_error in H as [j H]. assert (j < k). { rewrite <- (next_symbols_length c k). apply nth_error_Some. congruence. }
    rewrite next_symbols_nth in H by assumption. injection H as <-. exists (S c + j). split; [reflexivity | lia].
  Qed.
  Lemma next_symbols_nodup c k : NoDup (next_symbols c k).
  Proof.
    revert c. induction k as [|k IH]; intros c; cbn; constructor; [|apply IH]. intros H.
    apply next_symbols_in in H as [n [E L]]. injection E as <-. lia.
  Qed.
  Lemma Forall2_index {A B} (R : A -> B -> Prop) l m : length l = length m ->
    (forall j x y, nth_error l j = Some x -> nth_error m j = Some y -> R x y) -> Forall2 R l m.
  Proof.
    revert m. induction l as [|x l IH]; intros [|y m] L H; try discriminate; constructor.
    - apply (H 0); reflexivity.
    - apply IH; [now injection L |]. intros j. apply (H (S j)).
  Qed.
  Lemma Forall2_length {A B} (R : A -> B -> Prop) l m : Forall2 R l m -> length l = length m.
  Proof. induction 1; cbn; congruence. Qed.
  Lemma Forall2_nth {A B} (R : A -> B -> Prop) l m j x y : Forall2 R l m -> nth_error l j = Some x -> nth_error m j = Some y -> R x y.
  Proof. intros H. revert j. induction H; intros [|j] E1 E2; try discriminate; cbn in *; [now injection E1 as <-; injection E2 as <- | eauto]. Qed.
  Lemma lookup_extend_first xs ds env x : In x xs -> length xs = length ds ->
    exists j d, nth_error xs j = Some x /\ nth_error ds j = Some d /\ lookup x (extend xs ds env) = Some (Datum d).
  Proof.
    unfold extend. revert ds. induction xs as [|y xs IH]; intros [|d ds] I L; try discriminate; [contradiction |].
    cbn [combine map app lookup]. destruct (var_eqb x y) eqn:E.
    - apply var_eqb_eq in E. subst y. now exists 0, d.
    - destruct I as [-> | I]; [now rewrite var_eqb_refl in E |]. destruct (IH ds I) as [j [d' [H1 [H2 H3]]]]; [now injection L |].
      now exists (S j), d'.
  Qed.
  Lemma nth_error_combine {A B} (l : list A) (m : list B) j : length l = length m ->
    nth_error (combine l m) j = match nth_error l j, nth_error m j with Some x, Some y => Some (x, y) | _, _ => None end.
  Proof.
    revert m j. induction l as [|x l IH]; intros [|y m] j L; try discriminate; [now destruct j |]. destruct j as [|j]; [reflexivity |].
    cbn. apply IH. now injection L.
  Qed.
  Lemma nth_error_both {A B} (l : list A) (m : list B) j x : length l = length m -> nth_error l j = Some x -> exists y, nth_error m j = Some y.
  Proof.
    intros L H. destruct (nth_error m j) as [y |] eqn:E; [eauto |]. apply nth_error_None in E.
    assert (j < length l) by (apply nth_error_Some; congruence). lia.
  Qed.
  Definition value (s : bindings) (x : nat) : datum := image match get s x with Some b => b | None => One Nil end.
  (** What the lists of a loop hold in the end *)
  Definition collected (vs : list (nat * nat)) (ss : list bindings) (lls lls' : list (list datum)) : Prop :=
    length lls' = length vs /\
    forall j x n, nth_error vs j = Some (x, n) -> blank x = false ->
      nth_error lls' j = Some (rev (map (fun s => value s x) ss) ++ nth j lls []).
  Lemma loop_runs a dim c c1 c0 vs ys b once env0 :
    vs = all_vars a (S dim) [] -> ys = next_symbols (S (S (S c))) (length vs) -> c0 = S (S (S c)) + length vs ->
    NoDup (variables a) -> data env0 ->
    compiled a (E1 Car (EVar (Fresh (S (S c))))) c0 once (loop_call (Fresh (S (S c))) (Fresh (S (S (S c)))) vs ys) c1 ->
    let w := Fresh (S (S c)) in
    let l := Fresh (S (S (S c))) in
    let body := loop_body w vs ys b once in
    let envL := (l, Loop (w :: ys) body env0) :: env0 in
    forall d lls, length lls = length vs ->
    match every (map (matching a) (elements d)), same (after (pairs d) d) Nil with
    | Some ss, true => forall v,
        (forall lls', collected vs ss lls lls' ->
           gives (extend (w :: ys) (Nil :: map dlist lls') envL) (ELet (map (fun '((x, _), y) => (User x, E1 Reverse (EVar y))) (combine vs ys)) b) (Ok v)) ->
        gives (extend (w :: ys) (d :: map dlist lls) envL) body (Ok v)
    | _, _ => gives (extend (w :: ys) (d :: map dlist lls) envL) body (Ok (Bool false))
    end.
  Proof.
    intros Evs Eys Ec0 N D K w l body envL d.
    assert (Lys : length ys = length vs) by (subst ys; apply next_symbols_length).
    assert (Hw : forall ds, lookup w (extend (w :: ys) ds envL) = match ds with d :: _ => Some (Datum d) | [] => lookup w envL end).
    { intros [|d0 ds]; [reflexivity |]. unfold extend. cbn [combine map app]. apply lookup_same. }
    assert (Hnull : forall d ds, gives (extend (w :: ys) (d :: ds) envL) (E1 IsNull (EVar w)) (Ok (Bool match d with Nil => true | _ => false end))).
    { intros d0 ds. eapply gives_1; [apply gives_var; rewrite Hw; reflexivity | reflexivity]. }
    assert (Hpair : forall d ds, gives (extend (w :: ys) (d :: ds) envL) (E1 IsPair (EVar w)) (Ok (Bool match d with Pair _ _ => true | _ => false end))).
    { intros d0 ds. eapply gives_1; [apply gives_var; rewrite Hw; reflexivity | reflexivity]. }
    assert (Hatom : forall d lls, match d with Pair _ _ | Nil => False | _ => True end ->
       gives (extend (w :: ys) (d :: map dlist lls) envL) body (Ok (Bool false))).
    { intros d0 lls0 A. eapply gives_if; [apply Hnull |]. replace (match d0 with Nil => true | _ => false end) with false by (destruct d0; tauto).
      cbn [truth]. apply gives_and_false. replace false with (match d0 with Pair _ _ => true | _ => false end) by (destruct d0; tauto). apply Hpair. }
    assert (DL : data envL) by now apply data_fresh.
    induction d as [i | | x0 _ d1 IH | m IHm | i | i | i]; intros lls L; cbn [elements map every after pairs];
      try (match goal with |- context [same ?y Nil] => replace (same y Nil) with false by reflexivity end; apply Hatom; exact Logic.I).
    - replace (same Nil Nil) with true by (symmetry; now apply same_nil). intros v G. eapply gives_if; [apply Hnull |]. cbn [truth]. apply G.
      split; [exact L |]. intros j x n H B. cbn. destruct (nth_error_both vs lls j (x, n)) as [y Hy]; auto. rewrite Hy. f_equal.
      symmetry. now apply nth_error_nth.
    - assert (Enter : forall q, gives (extend (w :: ys) (Pair x0 d1 :: map dlist lls) envL) once q ->
        gives (extend (w :: ys) (Pair x0 d1 :: map dlist lls) envL) body q).
      { intros q H. eapply gives_if; [apply Hnull |]. cbn [truth]. apply gives_and; [apply Hpair | exact H]. }
      set (E := extend (w :: ys) (Pair x0 d1 :: map dlist lls) envL) in *.
      assert (DE : data E) by now apply data_extend.
      assert (XE : gives E (E1 Car (EVar (Fresh (S (S c))))) (Ok x0)).
      { eapply gives_1; [apply gives_var; unfold E; fold w; rewrite Hw; reflexivity | reflexivity]. }
      specialize (K E x0 DE XE). destruct (matching a x0) as [s0 |] eqn:M0.
      2: { apply Enter, K. }
      (* the call at the end of the pattern: the next round, with one more value in each list *)
      assert (Next : forall env', agree (names a) c0 c1 E env' ->
         (forall y b, get s0 y = Some b -> lookup (User y) env' = Some (Datum (image b))) ->
         exists lls1, length lls1 = length vs /\
           (forall j x n, nth_error vs j = Some (x, n) -> blank x = false -> nth j lls1 [] = value s0 x :: nth j lls []) /\
           forall q, gives (extend (w :: ys) (d1 :: map dlist lls1) envL) body q -> gives env' (loop_call w l vs ys) q).
      { intros env' [D' A'] B'.
        assert (Vals : exists vals, Forall2 (fun v d => gives env' (EVar (User (fst v))) (Ok d) /\ (blank (fst v) = false -> d = value s0 (fst v))) vs vals).
        { assert (Hv : forall v, In v vs -> In (fst v) (names a)).
          { intros v Hv. rewrite <- (names_dim a (S dim)), <- Evs. now apply in_map. }
          clear -Hv D' B' M0. induction vs as [|[x n] vs IH]; [exists []; constructor |].
          destruct IH as [vals IH]; [intros v I; apply Hv; now right |].
          assert (Hx : exists d, gives env' (EVar (User x)) (Ok d) /\ (blank x = false -> d = value s0 x)).
          { destruct (blank x) eqn:B.
            - specialize (D' x). destruct (lookup (User x) env') as [[d | ps bb en] |] eqn:Lk; [| contradiction |].
              + exists d. split; [now apply gives_var | discriminate].
              + exists (global (User x)). split; [|discriminate]. apply (gives_intro _ _ _ _ _ _ 1); [discriminate |]. cbn. now rewrite Lk.
            - assert (I : In x (map fst s0)).
              { rewrite (matching_keys a _ _ M0). destruct (names_variables a x) as [I | I]; [apply (Hv (x, n)); now left | exact I | congruence]. }
              apply get_some in I as [b Hb]. exists (image b). split; [apply gives_var; now apply B' |]. intros _. unfold value. now rewrite Hb. }
          destruct Hx as [d Hd]. exists (d :: vals). now constructor. }
        destruct Vals as [vals Vals]. assert (Lv : length vals = length vs) by (symmetry; eapply Forall2_length; eauto).
        exists (map (fun '(d, m) => d :: m) (combine vals lls)).
        assert (Ll : length (map (fun '(d, m) => d :: m) (combine vals lls)) = length vs).
        { rewrite map_length, combine_length. lia. }
        split; [exact Ll |]. split.
        - intros j x n H B. destruct (nth_error_both vs vals j (x, n)) as [d Hd]; auto. destruct (nth_error_both vs lls j (x, n)) as [m Hm]; auto.
          apply nth_error_nth. rewrite nth_error_map, nth_error_combine by lia. rewrite Hd, Hm. cbn. do 2 f_equal.
          + apply (Forall2_nth _ _ _ j (x, n) d Vals H Hd). exact B.
          + symmetry. now apply nth_error_nth.
        - intros q G. unfold loop_call.
          assert (Old : forall n, S (S c) <= n <= c0 -> lookup (Fresh n) env' = lookup (Fresh n) E).
          { intros n Ln. apply A'. cbn. lia. }
          eapply gives_call with (ds := d1 :: map dlist (map (fun '(d, m) => d :: m) (combine vals lls))).
          + constructor.
            * eapply gives_1; [apply gives_var; unfold w; rewrite Old by lia; unfold E; fold w; rewrite Hw; reflexivity | reflexivity].
            * apply Forall2_index; [rewrite !map_length, !combine_length; lia |].
              intros j ex dx Hex Hdx. rewrite nth_error_map in Hex. rewrite nth_error_combine in Hex by lia.
              destruct (nth_error vs j) as [[x n] |] eqn:Hx; [|discriminate].
              rewrite !nth_error_map in Hdx. rewrite nth_error_combine in Hdx by lia.
              destruct (nth_error_both vs ys j (x, n)) as [y Hy]; auto. destruct (nth_error_both vs vals j (x, n)) as [d Hd]; auto.
              destruct (nth_error_both vs lls j (x, n)) as [m Hm]; auto. rewrite Hy in Hex. rewrite Hd, Hm in Hdx. cbn in Hex, Hdx.
              injection Hex as <-. injection Hdx as <-.
              assert (Lj : j < length vs) by (apply nth_error_Some; congruence).
              eapply gives_2; [apply (Forall2_nth _ _ _ j (x, n) d Vals Hx Hd) | | reflexivity]. apply gives_var.
              pose proof Hy as Hy'. rewrite Eys in Hy. rewrite next_symbols_nth in Hy by exact Lj. injection Hy as <-.
              rewrite Old by lia. unfold E. eapply lookup_extend_nth with (j := S j).
              -- constructor; [|rewrite Eys; apply next_symbols_nodup]. intros I. rewrite Eys in I. apply next_symbols_in in I as [k [Ek Lk]]. injection Ek as <-. lia.
              -- exact Hy'.
              -- cbn. now rewrite nth_error_map, Hm.
          + unfold l. rewrite Old by lia. unfold E. rewrite lookup_extend.
            * apply lookup_same.
            * intros [I | I]; [injection I as I; lia |]. rewrite Eys in I. apply next_symbols_in in I as [k [Ek Lk]]. injection Ek as <-. lia.
          + exact G. }
      pose proof (every_spec (map (matching a) (elements d1))) as Ev. destruct (every (map (matching a) (elements d1))) as [ss |] eqn:Es.
      + destruct (same (after (pairs d1) d1) Nil) eqn:Sm.
        * intros v G. apply Enter, K. intros env' A' B'. destruct (Next env' A' B') as [lls1 [L1 [H1 H2]]]. apply H2.
          apply (IH lls1 L1 v). intros lls' [C1 C2]. apply G. split; [exact C1 |]. intros j x n H B. rewrite (C2 j x n H B), (H1 j x n H B).
          cbn [map rev]. now rewrite <- app_assoc.
        * apply Enter, K. intros env' A' B'. destruct (Next env' A' B') as [lls1 [L1 [H1 H2]]]. apply H2. apply (IH lls1 L1).
      + apply Enter, K. intros env' A' B'. destruct (Next env' A' B') as [lls1 [L1 [H1 H2]]]. apply H2. apply (IH lls1 L1).
  Qed.
  Lemma loop_compiled a e x dim c c0 c1 c2 vs ys once b :
    dots_ e = true -> vs = all_vars a (S dim) [] -> ys = next_symbols (S (S (S c))) (length vs) -> c0 = S (S (S c)) + length vs ->
    c0 <= c2 -> NoDup (variables a) ->
    compiled a (E1 Car (EVar (Fresh (S (S c))))) c0 once (loop_call (Fresh (S (S c))) (Fresh (S (S (S c)))) vs ys) c1 ->
    compiled (Pair a (Pair e Nil)) x c
      (ELet [(Fresh (S c), x)]
         (ELoop (Fresh (S (S (S c)))) ((Fresh (S (S c)), EVar (Fresh (S c))) :: map (fun y => (y, EQuote Nil)) ys)
            (loop_body (Fresh (S (S c))) vs ys b once))) b c2.
  Proof.
    intros E Evs Eys Ec0 L2 N K env d D X. rewrite matching_ellipsis by exact E. cbn [pairs Nat.leb]. rewrite firstn_elements, Nat.sub_0_r.
    assert (Lys : length ys = length vs) by (subst ys; apply next_symbols_length).
    set (env0 := (Fresh (S c), Datum d) :: env). assert (D0 : data env0) by now apply data_fresh.
    pose proof (loop_runs a dim c c1 c0 vs ys b once env0 Evs Eys Ec0 N D0 K) as R. cbv zeta in R.
    specialize (R d (map (fun _ => []) vs) (map_length _ _)).
    assert (En : map dlist (map (fun _ : nat * nat => []) vs) = map (fun _ => Nil) ys).
    { clear -Lys. revert ys Lys. induction vs as [|v vs IH]; intros [|y ys] L; try discriminate; [reflexivity |]. cbn. f_equal. apply IH. now injection L. }
    rewrite En in R.
    assert (W : forall q, gives (extend (Fresh (S (S c)) :: ys) (d :: map (fun _ => Nil) ys)
          ((Fresh (S (S (S c))), Loop (Fresh (S (S c)) :: ys) (loop_body (Fresh (S (S c))) vs ys b once) env0) :: env0))
          (loop_body (Fresh (S (S c))) vs ys b once) q ->
        gives env (ELet [(Fresh (S c), x)]
         (ELoop (Fresh (S (S (S c)))) ((Fresh (S (S c)), EVar (Fresh (S c))) :: map (fun y => (y, EQuote Nil)) ys)
            (loop_body (Fresh (S (S c))) vs ys b once))) q).
    { intros q H. apply gives_let1 with (d := d); [exact X |]. fold env0.
      assert (Ef : map fst ((Fresh (S (S c)), EVar (Fresh (S c))) :: map (fun y => (y, EQuote Nil)) ys) = Fresh (S (S c)) :: ys).
      { cbn. f_equal. rewrite map_map. cbn. apply map_id. }
      apply gives_loop with (ds := d :: map (fun _ => Nil) ys); [|rewrite Ef; exact H].
      cbn [map snd]. constructor; [apply gives_var, lookup_same |]. clear. induction ys as [|y ys IH]; cbn; constructor; [apply gives_quote | exact IH]. }
    destruct (every (map (matching a) (elements d))) as [ss |] eqn:Es; [|apply W; exact R].
    cbn [SyntaxRulesSpec.matching]. destruct (same (after (pairs d) d) Nil) eqn:Sm; cbn [both]; [|apply W; exact R].
    intros v G. apply W, R. intros lls [C1 C2].
    set (envN := extend (Fresh (S (S c)) :: ys) (Nil :: map dlist lls) _).
    assert (DN : data envN) by (apply data_extend, data_fresh; exact D0).
    assert (Ef : map fst (map (fun '((x, _), y) => (User x, E1 Reverse (EVar y))) (combine vs ys)) = map (fun v => User (fst v)) vs).
    { clear -Lys. revert ys Lys. induction vs as [|[z n] vs IH]; intros [|y ys] L; try discriminate; [reflexivity |]. cbn. f_equal. apply IH. now injection L. }
    apply gives_let with (ds := map (fun l => dlist (rev l)) lls).
    { apply Forall2_index; [rewrite !map_length, combine_length; lia |].
      intros j ex dx Hex Hdx. rewrite !nth_error_map in Hex. rewrite nth_error_combine in Hex by lia. rewrite nth_error_map in Hdx.
      destruct (nth_error vs j) as [[z n] |] eqn:Hz; [|discriminate]. destruct (nth_error ys j) as [y |] eqn:Hy; [|discriminate].
      destruct (nth_error lls j) as [m |] eqn:Hm; [|discriminate]. cbn in Hex, Hdx. injection Hex as <-. injection Hdx as <-.
      eapply gives_1; [|cbn [apply1]; unfold on_list; rewrite proper_dlist; reflexivity]. apply gives_var.
      unfold envN. eapply lookup_extend_nth with (j := S j); [| exact Hy | cbn; now rewrite nth_error_map, Hm].
      constructor; [|rewrite Eys; apply next_symbols_nodup]. intros I. rewrite Eys in I. apply next_symbols_in in I as [k [Ek Lk]]. injection Ek as <-. lia. }
    rewrite Ef. apply G.
    - split; [now apply data_extend |]. intros y C. rewrite lookup_extend.
      + unfold envN. rewrite lookup_extend.
        * unfold env0. rewrite !lookup_cons, !var_eqb_neq; [reflexivity | |]; intros ->; apply C; cbn; lia.
        * intros [<- | I]; [apply C; cbn; lia |]. rewrite Eys in I. apply next_symbols_in in I as [k [-> Lk]]. apply C. cbn. lia.
      + intros I. apply in_map_iff in I as [[z n] [<- I]]. apply C. unfold changed. cbn [fst]. rewrite names_ellipsis by exact E.
        apply in_or_app. left. rewrite <- (names_dim a (S dim)), <- Evs. change z with (fst (z, n)). now apply in_map.
    - intros y b' Hy. rewrite app_nil_r in Hy.
      assert (Iy : In y (variables a)).
      { apply get_in in Hy. unfold sequences in Hy. rewrite map_map in Hy. cbn in Hy. now rewrite map_id in Hy. }
      assert (By := variables_blank a y Iy).
      assert (b' = Many (map (fun s => match get s y with Some b => b | None => One Nil end) ss)) as ->.
      { clear -Hy Iy. unfold sequences in Hy. induction (variables a) as [|z l IH]; [contradiction |]. cbn in Hy.
        destruct (Nat.eqb_spec y z) as [-> | Nz]; [now injection Hy |]. destruct Iy as [-> | Iy]; [contradiction |]. now apply IH. }
      destruct (lookup_extend_first (map (fun v => User (fst v)) vs) (map (fun l => dlist (rev l)) lls) envN (User y)) as [j [d' [H1 [H2 H3]]]].
      { apply variables_names in Iy. rewrite <- (names_dim a (S dim)), <- Evs in Iy. apply in_map_iff in Iy as [v' [<- I]].
        apply in_map_iff. now exists v'. }
      { rewrite !map_length. lia. }
      rewrite H3. do 2 f_equal. rewrite nth_error_map in H1, H2. destruct (nth_error vs j) as [[z n] |] eqn:Hz; [|discriminate].
      cbn in H1. injection H1 as ->. rewrite (C2 j y n Hz By) in H2. cbn in H2. injection H2 as <-.
      rewrite rev_app_distr, rev_involutive.
      assert (nth j (map (fun _ : nat * nat => @nil datum) vs) [] = []) as ->.
      { clear. revert j. induction vs as [|v vs IH]; intros [|j]; cbn; auto. }
      cbn [rev app image]. f_equal. rewrite map_map. apply map_ext. intros s. unfold value. reflexivity.
  Qed.

  Lemma compiler_correct fuel : pattern_correct fuel.
  Proof.
    induction fuel as [|fuel IH]; intros p x dim vars k c e c' L H C N; [discriminate |].
    destruct (pattern_cases p) as [[i ->] | [-> | [[l ->] | [K | [[a [el [r [-> [E Nr]]]]] | [[i [el [-> E]]] | [[a [el [-> [E Na]]]] | [a [q [-> E]]]]]]]]]].
    - (* identifiers *)
      cbn [SyntaxRules.expand_pattern] in H. apply bind_pair in H as [e1 [c1 [H E1]]]. injection E1 as <- <-. rewrite literal_spec in H. fold (blank i) in H.
      destruct (lit i) eqn:Li.
      + apply bind_pair in H as [e2 [c2 [H E2]]]. injection E2 as <- <-. exists [], (S c), e2, c2. cbn [app].
        split; [exact H |]. apply L in H. do 3 (split; [lia |]). split; [intros j _; cbn; rewrite Li; reflexivity |].
        intros env d D X. cbn [SyntaxRulesSpec.matching]. rewrite Li.
        assert (T : gives ((Fresh (S c), Datum d) :: env) (ECompare (EVar (Fresh (S c))) (ERename (EQuote (Id i)))) (Ok (Bool (fits i d)))).
        { apply gives_compare; [apply gives_var, lookup_same | apply gives_rename, gives_quote]. }
        destruct (fits i d).
        * intros v G. apply gives_let1 with (d := d); [exact X |]. apply gives_and; [exact T |]. apply G; [|discriminate]. apply agree_fresh; [exact D | lia].
        * apply gives_let1 with (d := d); [exact X |]. now apply gives_and_false.
      + destruct (blank i) eqn:B.
        * exists [], (S c), e1, c1. cbn [app]. split; [exact H |]. apply L in H. do 3 (split; [lia |]).
          split; [intros j _; cbn; rewrite B, orb_true_r; reflexivity |].
          intros env d D X. cbn [SyntaxRulesSpec.matching]. rewrite Li, B. intros v G. apply gives_let1 with (d := d); [exact X |].
          apply G; [|discriminate]. apply agree_fresh; [exact D | lia].
        * apply bind_pair in H as [e2 [c2 [H E2]]]. injection E2 as <- <-. exists [(i, dim)], (S c), e2, c2. cbn [app].
          split; [exact H |]. apply L in H. do 3 (split; [lia |]). split; [intros j _; cbn; rewrite Li, B; reflexivity |].
          intros env d D X. cbn [SyntaxRulesSpec.matching]. rewrite Li, B. intros v G.
          apply gives_let1 with (d := d); [exact X |]. apply gives_let1 with (d := d); [apply gives_var, lookup_same |]. apply G.
          -- apply agree_trans with (X := []) (c := c) (c1 := S c) (Y := names (Id i)) (a := c) (b := S c) (env' := (Fresh (S c), Datum d) :: env); try lia.
             ++ apply agree_fresh; [exact D | lia].
             ++ apply agree_user; [now apply data_fresh |]. unfold names. cbn. rewrite literal_spec. rewrite Li. now left.
             ++ intros z [].
             ++ apply incl_refl.
          -- intros y b Hy. cbn in Hy. destruct (Nat.eqb_spec y i) as [-> | Ny]; [|discriminate]. injection Hy as <-. apply lookup_same.
    - (* () *)
      cbn [SyntaxRules.expand_pattern] in H. apply bind_pair in H as [e1 [c1 [H E1]]]. injection E1 as <- <-.
      apply bind_pair in H as [e2 [c2 [H E2]]]. injection E2 as <- <-. exists [], (S c), e2, c2. cbn [app].
      split; [exact H |]. apply L in H. do 3 (split; [lia |]). split; [reflexivity |].
      intros env d D X. cbn [SyntaxRulesSpec.matching].
      assert (T : gives ((Fresh (S c), Datum d) :: env) (E1 IsNull (EVar (Fresh (S c)))) (Ok (Bool (same d Nil)))).
      { eapply gives_1; [apply gives_var, lookup_same |]. rewrite <- equal_same. destruct d; reflexivity. }
      destruct (same d Nil).
      + intros v G. apply gives_let1 with (d := d); [exact X |]. apply gives_and; [exact T |]. apply G; [|discriminate]. apply agree_fresh; [exact D | lia].
      + apply gives_let1 with (d := d); [exact X |]. now apply gives_and_false.
    - (* vectors *)
      cbn [SyntaxRules.expand_pattern] in H. apply bind_pair in H as [e1 [c1 [H E1]]]. injection E1 as <- <-.
      apply bind_pair in H as [e2 [c2 [H E2]]]. injection E2 as <- <-.
      destruct (IH l _ _ _ _ _ _ _ L H C N) as [bs [c3 [ek [c4 [H1 [H2 [H3 [H4 [H5 H6]]]]]]]]].
      exists bs, c3, ek, c4. split; [exact H1 |]. do 3 (split; [lia |]). split; [exact H5 |].
      intros env d D X. cbn [SyntaxRulesSpec.matching].
      assert (F : forall f, match d with Vec _ => False | _ => True end ->
         gives env (ELet [(Fresh (S c), x)] (EAnd (E1 IsVector (EVar (Fresh (S c)))) f)) (Ok (Bool false))).
      { intros f A. apply gives_let1 with (d := d); [exact X |]. apply gives_and_false. eapply gives_1; [apply gives_var, lookup_same |]. destruct d; tauto. }
      destruct d as [z | | d1 d2 | m | z | z | z]; try (apply F; exact Logic.I).
      set (env1 := (Fresh (S c), Datum (Vec m)) :: env).
      assert (D1 : data env1) by now apply data_fresh.
      assert (X1 : gives env1 (E1 VectorToList (EVar (Fresh (S c)))) (Ok m)).
      { eapply gives_1; [apply gives_var, lookup_same | reflexivity]. }
      specialize (H6 env1 m D1 X1).
      assert (W : forall q, gives env1 e2 q -> gives env (ELet [(Fresh (S c), x)] (EAnd (E1 IsVector (EVar (Fresh (S c)))) e2)) q).
      { intros q G. apply gives_let1 with (d := Vec m); [exact X |]. apply gives_and; [|exact G]. eapply gives_1; [apply gives_var, lookup_same | reflexivity]. }
      destruct (matching l m) as [s |]; [|apply W, H6].
      intros v G. apply W, H6. intros env' A B. apply G; [|exact B].
      apply agree_trans with (X := []) (c := c) (c1 := S c) (Y := names l) (a := S c) (b := c3) (env' := env1); try lia; auto.
      + apply agree_fresh; [exact D | lia].
      + intros z [].
      + apply incl_refl.
    - (* constants *)
      assert (T : forall env d, gives ((Fresh (S c), Datum d) :: env) (E2 Equal (EVar (Fresh (S c))) (EQuote p)) (Ok (Bool (same d p)))).
      { intros env d. eapply gives_2; [apply gives_var, lookup_same | apply gives_quote |]. cbn. now rewrite equal_same. }
      assert (M : forall d, matching p d = if same d p then Some [] else None) by (destruct p; try contradiction; reflexivity).
      assert (Ex : expand_pattern (S fuel) p x dim vars k c =
        do '(e, c1) <- k vars (S c); Ok (ELet [(Fresh (S c), x)] (EAnd (E2 Equal (EVar (Fresh (S c))) (EQuote p)) e), c1)).
      { destruct p; try contradiction; cbn [SyntaxRules.expand_pattern]; destruct (k vars (S c)) as [[e1 c1] | | |]; reflexivity. }
      assert (Dp : depths p dim = []) by (destruct p; try contradiction; reflexivity).
      rewrite Ex in H. apply bind_pair in H as [e2 [c2 [H E2]]]. injection E2 as <- <-. exists [], (S c), e2, c2. cbn [app].
      split; [exact H |]. apply L in H. do 3 (split; [lia |]). split; [intros j _; now rewrite Dp |].
      intros env d D X. rewrite M. specialize (T env d). destruct (same d p).
      + intros v G. apply gives_let1 with (d := d); [exact X |]. apply gives_and; [exact T |]. apply G; [|discriminate]. apply agree_fresh; [exact D | lia].
      + apply gives_let1 with (d := d); [exact X |]. now apply gives_and_false.
    - (* patterns after an ellipsis *)
      rewrite expand_tail in H by assumption. destruct (any _ r); [discriminate |].
      apply bind_pair in H as [e2 [c2 [H E2]]]. injection E2 as <- <-. fold (swapped a el r) in H.
      apply careful_ellipsis in C as [C1 [C2 C3]]; [|exact E].
      assert (N' := N). rewrite variables_ellipsis in N' by exact E. apply NoDup_app_parts in N' as [N1 [N2 N3]].
      assert (Cs : careful_pattern (swapped a el r) = true).
      { unfold swapped. cbn [SyntaxRulesSpec.careful_pattern]. rewrite starts_swapped, C3. cbn [SyntaxRulesSpec.starts SyntaxRulesSpec.careful_pattern].
        rewrite E, C2. destruct a; try reflexivity. now rewrite C1. }
      assert (Vs : variables (swapped a el r) = variables r ++ (variables a ++ []) ++ []).
      { unfold swapped. rewrite variables_pair by apply starts_swapped. rewrite variables_pair by reflexivity. now rewrite variables_ellipsis by exact E. }
      assert (Ds : depths (swapped a el r) dim = depths r dim ++ (depths a (S dim) ++ []) ++ []).
      { unfold swapped. rewrite depths_pair by apply starts_swapped. rewrite depths_pair by reflexivity. now rewrite depths_ellipsis by exact E. }
      assert (Ns : NoDup (variables (swapped a el r))).
      { rewrite Vs, !app_nil_r. apply NoDup_app_intro; auto. intros y I J. now apply (N3 y). }
      destruct (IH _ _ _ _ _ _ _ _ L H Cs Ns) as [bs [c3 [ek [c4 [H1 [H2 [H3 [H4 [H5 H6]]]]]]]]].
      exists bs, c3, ek, c4. split; [exact H1 |]. do 3 (split; [lia |]). split.
      + intros j B. rewrite (H5 j B), Ds, depths_ellipsis, !app_nil_r, !depth_in_app by exact E.
        destruct (depth_in j (depths a (S dim))) as [n |] eqn:Ea; destruct (depth_in j (depths r dim)) as [n' |] eqn:Er; try reflexivity. exfalso.
        apply (N3 j).
        * destruct (in_dec Nat.eq_dec j (variables a)) as [I | I]; [exact I |]. rewrite <- (depths_variables a (S dim)) in I. apply depth_in_none in I. congruence.
        * destruct (in_dec Nat.eq_dec j (variables r)) as [I | I]; [exact I |]. rewrite <- (depths_variables r dim) in I. apply depth_in_none in I. congruence.
      + apply tail_compiled; auto. lia.
    - (* an identifier and an ellipsis *)
      rewrite expand_sequence in H by assumption. apply bind_pair in H as [e2 [c2 [H E2]]]. injection E2 as <- <-.
      apply careful_ellipsis in C as [C1 [C2 C3]]; [|exact E].
      exists [(i, S dim)], (S c), e2, c2. cbn [app]. split; [exact H |]. apply L in H. do 3 (split; [lia |]). split.
      + intros j B. rewrite depths_ellipsis by exact E. cbn. rewrite C1. cbn. destruct (blank i) eqn:Bi; [|reflexivity]. cbn.
        destruct (Nat.eqb_spec j i) as [-> | Nj]; [congruence | reflexivity].
      + now apply sequence_compiled.
    - (* another pattern and an ellipsis *)
      rewrite expand_loop in H by assumption. cbv zeta in H. apply bind_pair in H as [once [c2 [H E2]]].
      apply bind_pair in E2 as [b [c3 [H3 E3]]]. injection E3 as <- <-.
      apply careful_ellipsis in C as [C1 [C2 C3]]; [|exact E]. rewrite variables_ellipsis in N by exact E. apply NoDup_app_parts in N as [N1 _].
      edestruct (IH a) as [bs [c5 [ek [c6 [H1 [H2 [H4 [H5 [_ H6]]]]]]]]]; [| exact H | exact C2 | exact N1 |].
      { intros vs c0 e0 c0' E0. injection E0 as <- <-. lia. }
      cbv beta in H1. injection H1 as <- <-.
      exists (all_vars a (S dim) []), c2, b, c3. split; [exact H3 |]. apply L in H3. do 3 (split; [lia |]). split.
      + intros j B. rewrite depths_ellipsis, app_nil_r by exact E. now apply all_vars_depths.
      + eapply loop_compiled; eauto. lia.
    - (* pairs *)
      rewrite expand_pair in H by assumption. apply bind_pair in H as [e2 [c2 [H E2]]]. injection E2 as <- <-.
      apply careful_pair in C as [C1 C2]; [|exact E]. rewrite variables_pair in N by exact E. apply NoDup_app_parts in N as [N1 [N2 N3]].
      edestruct (IH a) as [bs [c3 [ek [c4 [H1 [H2 [H3 [H4 [H5 H6]]]]]]]]]; [| exact H | exact C1 | exact N1 |].
      { intros vs c0 e0 c0' E0. apply expand_later in E0; [lia | exact L]. }
      cbv beta in H1.
      destruct (IH q _ _ _ _ _ _ _ L H1 C2 N2) as [bs' [c5 [ek' [c6 [H1' [H2' [H3' [H4' [H5' H6']]]]]]]]].
      exists (bs' ++ bs), c5, ek', c6. rewrite <- app_assoc. split; [exact H1' |]. do 3 (split; [lia |]). split.
      + intros j B. rewrite depths_pair, !depth_in_app, (H5 j B), (H5' j B) by exact E.
        destruct (depth_in j (depths a dim)) as [n |] eqn:Ea; destruct (depth_in j (depths q dim)) as [n' |] eqn:Er; try reflexivity. exfalso.
        apply (N3 j).
        * destruct (in_dec Nat.eq_dec j (variables a)) as [I | I]; [exact I |]. rewrite <- (depths_variables a dim) in I. apply depth_in_none in I. congruence.
        * destruct (in_dec Nat.eq_dec j (variables q)) as [I | I]; [exact I |]. rewrite <- (depths_variables q dim) in I. apply depth_in_none in I. congruence.
      + intros env d D X. rewrite matching_pair by exact E.
        assert (F : forall f, match d with Pair _ _ => False | _ => True end ->
           gives env (ELet [(Fresh (S c), x)] (EAnd (E1 IsPair (EVar (Fresh (S c)))) f)) (Ok (Bool false))).
        { intros f A. apply gives_let1 with (d := d); [exact X |]. apply gives_and_false. eapply gives_1; [apply gives_var, lookup_same |]. destruct d; tauto. }
        destruct d as [z | | d1 d2 | m | z | z | z]; try (apply F; exact Logic.I). clear F.
        set (env1 := (Fresh (S c), Datum (Pair d1 d2)) :: env).
        assert (D1 : data env1) by now apply data_fresh.
        assert (X1 : gives env1 (E1 Car (EVar (Fresh (S c)))) (Ok d1)) by (eapply gives_1; [apply gives_var, lookup_same | reflexivity]).
        specialize (H6 env1 d1 D1 X1).
        assert (W : forall q0, gives env1 e2 q0 -> gives env (ELet [(Fresh (S c), x)] (EAnd (E1 IsPair (EVar (Fresh (S c)))) e2)) q0).
        { intros q0 G. apply gives_let1 with (d := Pair d1 d2); [exact X |]. apply gives_and; [|exact G]. eapply gives_1; [apply gives_var, lookup_same | reflexivity]. }
        destruct (matching a d1) as [s1 |] eqn:M1; [|apply W, H6].
        assert (X2 : forall env', agree (names a) (S c) c3 env1 env' -> gives env' (E1 Cdr (EVar (Fresh (S c)))) (Ok d2)).
        { intros env' [_ A]. eapply gives_1; [apply gives_var; rewrite A; [apply lookup_same | cbn; lia] | reflexivity]. }
        destruct (matching q d2) as [s2 |] eqn:M2; cbn [both].
        * intros v G. apply W, H6. intros env' A B. specialize (H6' env' d2 (proj1 A) (X2 env' A)). rewrite M2 in H6'. apply H6'.
          intros env'' A' B'. apply G.
          -- apply agree_trans with (X := names a) (c := c) (c1 := c3) (Y := names q) (a := c3) (b := c5) (env' := env'); auto; try lia.
             ++ apply agree_trans with (X := []) (c := c) (c1 := S c) (Y := names a) (a := S c) (b := c3) (env' := env1); auto; try lia.
                ** apply agree_fresh; [exact D | lia].
                ** intros z [].
                ** apply incl_refl.
             ++ rewrite names_pair by exact E. apply incl_appl, incl_refl.
             ++ rewrite names_pair by exact E. apply incl_appr, incl_refl.
          -- intros y b Hy. rewrite get_app in Hy. destruct (get s1 y) as [b1 |] eqn:G1.
             ++ injection Hy as <-. rewrite (proj2 A'); [now apply B |]. cbn. intros I.
                assert (Iy : In y (variables a)) by (rewrite <- (matching_keys a _ _ M1); now apply get_in in G1).
                destruct (names_variables q y I) as [J | J]; [now apply (N3 y) |]. rewrite (variables_blank a y Iy) in J. discriminate.
             ++ now apply B'.
        * apply W, H6. intros env' A B. specialize (H6' env' d2 (proj1 A) (X2 env' A)). now rewrite M2 in H6'.
  Qed.

  (** ** Templates *)
  Notation dots := (dots dots_).
  Notation instance := (instance dots_ (fun x => rename (Id x))).
  Notation copies := (copies dots_ (fun x => rename (Id x))).
  Notation careful_template := (careful_template dots_).
  Notation expand_template := (expand_template cmp ellipsis).
  Lemma dots_starts n q r : dots (S n) q r -> starts q = true.
  Proof. intros [e [q' [-> [E _]]]]. exact E. Qed.
  Lemma dots_unique n q r : dots n q r -> forall n' r', dots n' q r' -> n = n' /\ r = r'.
  Proof.
    revert q. induction n as [|n IH]; intros q H [|n'] r' H'.
    - destruct H as [<- _], H' as [<- _]. auto.
    - destruct H as [<- H]. apply dots_starts in H'. congruence.
    - destruct H' as [<- H']. apply dots_starts in H. congruence.
    - destruct H as [e [q1 [-> [_ H]]]], H' as [e' [q2 [E [_ H']]]]. injection E as <- <-. destruct (IH _ H _ _ H') as [-> ->]. auto.
  Qed.
  Lemma dots_depth n q r : dots n q r -> forall a, ellipsis_depth cmp ellipsis (Pair a q) = n.
  Proof.
    revert q. induction n as [|n IH]; intros q H a.
    - destruct H as [-> H]. cbn [SyntaxRules.ellipsis_depth]. now rewrite followed_pair, H.
    - pose proof (dots_starts _ _ _ H) as F. destruct H as [e [q' [-> [_ H]]]].
      change (ellipsis_depth cmp ellipsis (Pair a (Pair e q'))) with (if followed cmp ellipsis (Pair a (Pair e q')) then S (ellipsis_depth cmp ellipsis (Pair e q')) else 0).
      rewrite followed_pair, F. f_equal. now apply IH.
  Qed.
  Lemma dots_tail n q r : dots n q r -> forall a, ellipsis_tail cmp ellipsis (Pair a q) = r.
  Proof.
    revert q. induction n as [|n IH]; intros q H a.
    - destruct H as [-> H]. cbn [SyntaxRules.ellipsis_tail]. now rewrite followed_pair, H.
    - pose proof (dots_starts _ _ _ H) as F. destruct H as [e [q' [-> [_ H]]]].
      change (ellipsis_tail cmp ellipsis (Pair a (Pair e q'))) with
        (if followed cmp ellipsis (Pair a (Pair e q')) then ellipsis_tail cmp ellipsis (Pair e q') else Pair e q').
      rewrite followed_pair, F. now apply IH.
  Qed.
  Lemma dots_identifiers n q r : dots n q r -> incl (identifiers r) (identifiers q).
  Proof.
    revert q. induction n as [|n IH]; intros q H.
    - destruct H as [-> _]. apply incl_refl.
    - destruct H as [e [q' [-> [_ H]]]]. cbn. apply incl_appr. now apply IH.
  Qed.
  Lemma prepend_nil ds : prepend ds Nil = dlist ds.
  Proof. induction ds; cbn; congruence. Qed.

  (** The variables of a template, for the compiler and in the bindings *)
  Definition consistent (s : bindings) (vars : list (nat * nat)) (dim : nat) (t : datum) (env : environment) : Prop :=
    forall x, In x (identifiers t) ->
    match depth_in x vars with
    | Some k => exists b, get s x = Some b /\ uniform (k - dim) b /\ lookup (User x) env = Some (Datum (image b))
    | None => get s x = None
    end.
  Lemma consistent_incl s vars dim t t' env : incl (identifiers t') (identifiers t) -> consistent s vars dim t env -> consistent s vars dim t' env.
  Proof. intros I H x J. apply H, I, J. Qed.
  Lemma free_vars_in t vars dim x : forall free, In x (free_vars t vars dim free) <->
    In x free \/ (In x (identifiers t) /\ match depth_in x vars with Some n => dim <= n | None => False end).
  Proof.
    induction t; intros free; cbn [free_vars identifiers]; try (cbn; tauto).
    - rename x0 into y. destruct (existsb (Nat.eqb y) free) eqn:E; cbn [negb andb].
      + apply existsb_exists in E as [z [I Ez]]. apply Nat.eqb_eq in Ez. subst z. split; [tauto |]. intros [J | [[<- | []] _]]; assumption.
      + destruct (depth_in y vars) as [n |] eqn:D.
        * destruct (Nat.leb_spec dim n) as [L | L]; cbn.
          -- split; [intros [<- | J]; [right; rewrite D; split; [now left | exact L] | tauto] |]. intros [J | [[<- | []] _]]; tauto.
          -- split; [tauto |]. intros [J | [[<- | []] J]]; [tauto |]. rewrite D in J. lia.
        * cbn. split; [tauto |]. intros [J | [[<- | []] J]]; [tauto |]. now rewrite D in J.
    - rewrite IHt1, IHt2, in_app_iff. tauto.
    - apply IHt.
  Qed.
  Lemma again_in s t x : In x (again s t) <-> In x (identifiers t) /\ exists l, get s x = Some (Many l).
  Proof.
    unfold again. rewrite filter_In. destruct (get s x) as [[d | l] |]; split; intros [I H]; split; auto; try discriminate; try (now exists l);
      destruct H as [l' H]; discriminate.
  Qed.
  Lemma get_pick i xs s x : get (pick i xs s) x =
    match get s x with
    | Some b => Some (if existsb (Nat.eqb x) xs then match b with Many l => nth i l (One Nil) | _ => b end else b)
    | None => None
    end.
  Proof.
    unfold pick. induction s as [|[y b] s IH]; cbn; [reflexivity |]. destruct (Nat.eqb_spec x y) as [-> | N]; [reflexivity | exact IH].
  Qed.
  Lemma existsb_in x xs : existsb (Nat.eqb x) xs = true <-> In x xs.
  Proof.
    rewrite existsb_exists. split; [intros [y [I E]]; apply Nat.eqb_eq in E; now subst | intros I; exists x; split; [exact I | apply Nat.eqb_refl]].
  Qed.
  Lemma consistent_again s vars dim t env x : consistent s vars dim t env ->
    (In x (again s t) <-> In x (free_vars t vars (S dim) [])).
  Proof.
    intros C. rewrite again_in, free_vars_in. cbn [In]. split.
    - intros [I [l G]]. right. split; [exact I |]. specialize (C x I). destruct (depth_in x vars) as [k |]; [|congruence].
      destruct C as [b [G' [U _]]]. rewrite G in G'. injection G' as <-. destruct (k - dim) eqn:E; [contradiction | lia].
    - intros [[] | [I D]]. split; [exact I |]. specialize (C x I). destruct (depth_in x vars) as [k |]; [|contradiction].
      destruct C as [b [G [U _]]]. destruct (k - dim) eqn:E; [lia |]. destruct b as [d | l]; [contradiction | eauto].
  Qed.
  (** Rows of lists of the same length *)
  Lemma rows_nth n : forall ls, ls <> [] -> (forall l, In l ls -> length l = n) ->
    rows n ls = map (fun i => map (fun l => nth i l Nil) ls) (seq 0 n).
  Proof.
    induction n as [|n IH]; intros ls N L; [reflexivity |]. cbn [rows seq map].
    assert (E : existsb (fun l : list datum => match l with [] => true | _ => false end) ls = false).
    { apply not_true_is_false. intros H. apply existsb_exists in H as [l [I H]]. apply L in I. destruct l; discriminate. }
    rewrite E. f_equal.
    - apply map_ext. intros [|x l]; reflexivity.
    - rewrite IH.
      + rewrite <- seq_shift, map_map. apply map_ext. intros i. rewrite map_map. apply map_ext. intros [|x l]; [destruct i; reflexivity | reflexivity].
      + destruct ls; [contradiction | discriminate].
      + intros l I. apply in_map_iff in I as [l' [<- I]]. apply L in I. destruct l'; [discriminate | now injection I].
  Qed.
  Lemma map_rows_nth n ls : ls <> [] -> (forall l, In l ls -> length l = n) ->
    map_rows ls = map (fun i => map (fun l => nth i l Nil) ls) (seq 0 n).
  Proof.
    intros N L. unfold map_rows. destruct ls as [|l ls]; [contradiction |]. cbn [hd]. rewrite (L l) by now left. now apply rows_nth.
  Qed.
  (** The environment for one copy *)
  Lemma consistent_pick s vars dim a env xs k i :
    consistent s vars dim a env -> xs = free_vars a vars (S dim) [] -> i < k ->
    (forall x, In x (again s a) -> exists l, get s x = Some (Many l) /\ length l = k) ->
    consistent (pick i (again s a) s) vars (S dim) a
      (extend (map User xs) (map (fun x => nth i (match get s x with Some (Many l) => map image l | _ => [] end) Nil) xs) env).
  Proof.
    intros C Exs Li L x I. pose proof (C x I) as Cx. rewrite get_pick. destruct (depth_in x vars) as [n |] eqn:D; [|now rewrite Cx].
    destruct Cx as [b [G [U Lk]]]. rewrite G. destruct (existsb (Nat.eqb x) (again s a)) eqn:Ex.
    - apply existsb_in in Ex. destruct (L x Ex) as [l [G' Ll]]. rewrite G in G'. injection G' as ->.
      exists (nth i l (One Nil)). split; [reflexivity |]. split.
      + replace (n - dim) with (S (n - S dim)) in U.
        * cbn in U. rewrite Forall_forall in U. apply U, nth_In. lia.
        * assert (dim < n); [|lia]. destruct (n - dim) eqn:E; [contradiction | lia].
      + apply (consistent_again s vars dim a env x C) in Ex. rewrite <- Exs in Ex.
        destruct (lookup_extend_first (map User xs) (map (fun x => nth i (match get s x with Some (Many l) => map image l | _ => [] end) Nil) xs) env (User x))
          as [j [d' [H1 [H2 H3]]]]; [now apply in_map | now rewrite !map_length |].
        rewrite H3. do 2 f_equal. rewrite nth_error_map in H1, H2. destruct (nth_error xs j) as [z |]; [|discriminate]. cbn in H1, H2.
        injection H1 as ->. injection H2 as <-. rewrite G. change Nil with (image (One Nil)). apply map_nth.
    - assert (Nx : ~ In x (again s a)) by (intros J; apply existsb_in in J; congruence).
      exists b. split; [reflexivity |].
      assert (Z : n - dim = 0).
      { destruct (n - dim) eqn:E; [reflexivity |]. exfalso. apply Nx, again_in. split; [exact I |]. destruct b; [contradiction | eauto]. }
      rewrite Z in U. replace (n - S dim) with 0 by lia. split; [exact U |]. rewrite lookup_extend; [exact Lk |].
      intros J. apply in_map_iff in J as [y [E J]]. injection E as ->. rewrite Exs in J.
      apply Nx. now apply (consistent_again s vars dim a env x C).
  Qed.
  (** One ellipsis *)
  Lemma copies_once s vars dim a env e ds xs :
    consistent s vars dim a env -> xs = free_vars a vars (S dim) [] -> copies s a 1 ds ->
    (forall s' env' d, consistent s' vars (S dim) a env' -> instance true s' a d -> gives env' e (Ok d)) ->
    gives env (EMap (map User xs) e (map (fun x => EVar (User x)) xs)) (Ok (dlist ds)).
  Proof.
    intros C Exs K G. inversion K as [| s0 t0 n0 k dss N L Lk H]; subst s0 t0 n0 ds.
    set (col := fun x => match get s x with Some (Many l) => map image l | _ => [] end).
    assert (B : forall x, In x xs -> exists l, get s x = Some (Many l) /\ length l = k /\ lookup (User x) env = Some (Datum (image (Many l)))).
    { intros x I. rewrite Exs in I. apply (consistent_again s vars dim a env x C) in I. destruct (L x I) as [l [G1 G2]]. exists l. repeat split; auto.
      apply again_in in I as [I _]. specialize (C x I). destruct (depth_in x vars); [|congruence]. destruct C as [b [G3 [_ G4]]]. congruence. }
    assert (A : forall d, In d dss -> length d = 1).
    { intros d I. apply In_nth with (d := []) in I as [i [Li <-]]. rewrite Lk in Li. apply H in Li. now inversion Li. }
    apply gives_map with (ls := map col xs).
    - clear Exs. induction xs as [|x xs IH]; cbn; constructor.
      + destruct (B x) as [l [G1 [_ G2]]]; [now left |]. unfold col. rewrite G1. now apply gives_var.
      + apply IH. intros y I. apply B. now right.
    - rewrite (map_rows_nth k).
      + apply Forall2_index.
        { rewrite map_length, seq_length. clear -Lk A. subst k.
          induction dss as [|d dss IH]; [reflexivity |]. cbn. rewrite app_length, (A d) by now left. cbn. f_equal. apply IH. intros d' I. apply A. now right. }
        intros i row d Hr Hd. rewrite nth_error_map in Hr. destruct (nth_error (seq 0 k) i) as [i' |] eqn:Hi; [|discriminate].
        assert (Li : i < k) by (rewrite <- (seq_length k 0); apply nth_error_Some; congruence).
        apply nth_error_nth with (d := 0) in Hi. rewrite seq_nth in Hi by exact Li. cbn in Hi. subst i'. cbn in Hr. injection Hr as <-.
        rewrite map_map. unfold col. apply (G (pick i (again s a) s)); [now apply (consistent_pick s vars dim a env xs k i) |].
        specialize (H i Li). inversion H as [s1 t1 d1 Hi E1 E2 E0 E3 |]; subst s1 t1.
        replace d with d1; [exact Hi |].
        clear -A Hd E3. revert i Hd E3. induction dss as [|x dss IH]; intros i Hd E3; [destruct i; discriminate |].
        pose proof (A x (or_introl eq_refl)) as A0. destruct x as [|y [|? ?]]; try discriminate.
        destruct i as [|i]; cbn in Hd, E3; [congruence |]. apply (IH (fun d I => A d (or_intror I)) i Hd E3).
      + intros E. apply map_eq_nil in E. apply N. destruct (again s a) as [|y l] eqn:Ea; [reflexivity |].
        assert (I : In y (again s a)) by (rewrite Ea; now left). apply (consistent_again s vars dim a env y C) in I. rewrite <- Exs, E in I. contradiction.
      + intros l I. apply in_map_iff in I as [x [<- I]]. destruct (B x I) as [m [G1 [G2 _]]]. unfold col. rewrite G1, map_length. exact G2.
  Qed.
  (** Several ellipses after an identifier *)
  Fixpoint leaves (b : binding) : list datum := match b with One d => [d] | Many l => flat_map leaves l end.
  Definition members (b : binding) : list binding := match b with Many l => l | One _ => [] end.
  Lemma copies_leaves n : forall s x b ds, get s x = Some b -> uniform n b -> copies s (Id x) n ds -> ds = leaves b.
  Proof.
    induction n as [|n IH]; intros s x b ds G U C.
    - inversion C as [s0 t0 d Hi |]; subst. destruct b as [d0 | l]; [|contradiction].
      inversion Hi as [active s1 y d1 G1 | active s1 y G1 | | | | | | | |]; subst; rewrite G in G1; [injection G1 as <-; reflexivity | discriminate].
    - destruct b as [d0 | l]; [contradiction |]. inversion C as [| s0 t0 n0 k dss N L Lk H]; subst s0 t0 n0 ds.
      assert (A : again s (Id x) = [x]) by (unfold again; cbn; now rewrite G). rewrite A in *.
      destruct (L x) as [l' [G' Ll]]; [now left |]. rewrite G in G'. injection G' as <-.
      cbn [leaves]. rewrite flat_map_concat_map. f_equal. apply nth_ext with (d := []) (d' := leaves (One Nil)); [rewrite map_length; lia |].
      intros i Li. rewrite map_nth. rewrite Lk in Li. apply (IH (pick i [x] s) x (nth i l (One Nil))).
      + rewrite get_pick, G. cbn. now rewrite Nat.eqb_refl.
      + cbn in U. rewrite Forall_forall in U. apply U, nth_In. lia.
      + now apply H.
  Qed.
  Lemma append_all_concat lls : append_all (map dlist lls) = Ok (dlist (concat lls)).
  Proof.
    induction lls as [|l lls IH]; [reflexivity |]. cbn [map append_all]. destruct (map dlist lls) as [|y ys] eqn:E.
    - apply map_eq_nil in E. subst lls. cbn. now rewrite app_nil_r.
    - rewrite IH. cbn [bind]. unfold on_list. rewrite proper_dlist. f_equal. cbn [concat].
      clear. induction l as [|x l IH]; cbn; congruence.
  Qed.
  Lemma flatten_leaves n : forall e env l, gives env e (Ok (image (Many l))) -> uniform (S n) (Many l) ->
    gives env (flatten (S n) e) (Ok (dlist (leaves (Many l)))).
  Proof.
    induction n as [|n IH]; intros e env l G U.
    - cbn [flatten leaves]. replace (flat_map leaves l) with (map image l); [exact G |].
      cbn in U. clear G. induction U as [|b l U Us IHl]; [reflexivity |]. cbn. destruct b; [|contradiction]. cbn. now rewrite IHl.
    - assert (Sw : forall m e', flatten (S (S m)) e' = flatten (S m) (E1 ApplyAppend e')).
      { clear. induction m as [|m IHm]; intros e'; [reflexivity |]. change (flatten (S (S (S m))) e') with (E1 ApplyAppend (flatten (S (S m)) e')).
        rewrite IHm. reflexivity. }
      rewrite Sw. replace (leaves (Many l)) with (leaves (Many (flat_map members l))).
      + apply IH.
        * eapply gives_1; [exact G |]. cbn [apply1 image]. unfold on_list. rewrite proper_dlist.
          assert (E : map image l = map dlist (map (fun b => map image (members b)) l)).
          { rewrite map_map. apply map_ext_in. intros b I. cbn in U. rewrite Forall_forall in U. specialize (U b I). destruct b; [contradiction | reflexivity]. }
          rewrite E, append_all_concat. do 2 f_equal. rewrite flat_map_concat_map, concat_map, map_map. reflexivity.
        * cbn in U |- *. rewrite Forall_forall in *. intros b I. apply in_flat_map in I as [b' [I J]]. specialize (U b' I).
          destruct b' as [|l']; [contradiction |]. rewrite Forall_forall in U. now apply U.
      + cbn [leaves]. cbn in U. clear -U. induction U as [|b l U Us IHl]; [reflexivity |]. cbn. rewrite flat_map_app, IHl. f_equal.
        destruct b; [contradiction | reflexivity].
  Qed.
  Lemma column (env : environment) x l : lookup (User x) env = Some (Datum (dlist l)) ->
    gives env (EMap [User x] (EVar (User x)) [EVar (User x)]) (Ok (dlist l)).
  Proof.
    intros H. apply gives_map with (ls := [l]); [constructor; [now apply gives_var | constructor] |].
    rewrite (map_rows_nth (length l)); [| discriminate | intros m [<- | []]; reflexivity].
    apply Forall2_index; [now rewrite map_length, seq_length |]. intros i row d Hr Hd. rewrite nth_error_map in Hr.
    assert (Li : i < length l) by (apply nth_error_Some; congruence).
    destruct (nth_error (seq 0 (length l)) i) as [i' |] eqn:Hi; [|discriminate].
    apply nth_error_nth with (d := 0) in Hi. rewrite seq_nth in Hi by exact Li. cbn in Hi. subst i'. cbn in Hr. injection Hr as <-.
    apply gives_var. cbn. rewrite Nat.eqb_refl. do 2 f_equal. now apply nth_error_nth.
  Qed.

  Lemma prepend_dlist ds m : prepend ds (dlist m) = dlist (ds ++ m).
  Proof. induction ds; cbn; congruence. Qed.
  Lemma dots_pairs n q r : dots n q r -> pairs q = n + pairs r /\ closed q = closed r.
  Proof.
    revert q. induction n as [|n IH]; intros q H; [destruct H as [-> _]; auto |]. destruct H as [e [q' [-> [_ H]]]].
    apply IH in H as [E1 E2]. cbn. auto.
  Qed.
  Lemma instance_closed n : forall s l d, pairs l <= n -> closed l = true -> careful_template l -> instance true s l d -> exists m, d = dlist m.
  Proof.
    induction n as [|n IH]; intros s l d L P C J.
    - destruct l; try discriminate; [|cbn in L; lia]. inversion J; subst. now exists [].
    - destruct l as [| | a q | | | |]; try discriminate; [inversion J; subst; now exists [] |]. cbn in L, P.
      inversion J as [| | | | | | | s0 e0 t0 d0 E0 J0 | active s0 a0 q0 x y N Jx Jy | s0 a0 q0 n' r' ds y Ea' Dq' Jc Jr]; subst.
      + inversion C; congruence.
      + destruct (IH s q y) as [m ->]; [lia | exact P | | exact Jy | now exists (x :: m)].
        inversion C as [| | | | | | a1 q1 Ea1 Sq1 Ca1 Cq1 | a1 q1 n1 r1 Ea1 Dq1 An1 Ca1 Cr1]; subst; [assumption |].
        destruct (N eq_refl) as [_ Sq]. apply dots_starts in Dq1. congruence.
      + destruct (dots_pairs _ _ _ Dq') as [E1 E2].
        destruct (IH s r' y) as [m ->]; [lia | congruence | | exact Jr | exists (ds ++ m); apply prepend_dlist].
        inversion C as [| | | | | | a1 q1 Ea1 Sq1 Ca1 Cq1 | a1 q1 n1 r1 Ea1 Dq1 An1 Ca1 Cr1]; subst.
        * apply dots_starts in Dq'. congruence.
        * destruct (dots_unique _ _ _ Dq' _ _ Dq1) as [_ ->]. assumption.
  Qed.

  Lemma template_correct fuel : forall t vars dim e env s d,
    expand_template fuel t vars dim = Ok e -> careful_template t -> consistent s vars dim t env -> instance true s t d ->
    gives env e (Ok d).
  Proof.
    induction fuel as [|fuel IH]; intros t vars dim e env s d H C K J; [discriminate |].
    destruct C as [x | | b | n | n | l P C | a q Ea Sq Ca Cq | a q n r Ea Dq An Ca Cr]; cbn [SyntaxRules.expand_template] in H.
    - specialize (K x (or_introl eq_refl)). destruct (depth_in x vars) as [k |].
      + destruct K as [b [G [U Lk]]]. destruct (Nat.leb_spec k dim) as [L | L]; [|discriminate]. injection H as <-.
        replace (k - dim) with 0 in U by lia. destruct b as [d0 | l]; [|contradiction].
        inversion J as [active s1 y d1 G1 | active s1 y G1 | | | | | | | |]; subst; rewrite G in G1; [injection G1 as <- | discriminate].
        now apply gives_var.
      + injection H as <-. inversion J as [active s1 y d1 G1 | active s1 y G1 | | | | | | | |]; subst; [congruence |].
        apply gives_rename, gives_quote.
    - injection H as <-. inversion J; subst. apply gives_quote.
    - injection H as <-. inversion J; subst. apply gives_quote.
    - injection H as <-. inversion J; subst. apply gives_quote.
    - injection H as <-. inversion J; subst. apply gives_quote.
    - apply bind_ok in H as [e1 [H E]]. injection E as <-. inversion J; subst.
      match goal with Hi : instance true s l ?d |- _ => assert (G : gives env e1 (Ok d)) by (eapply IH; eauto); destruct (instance_closed _ _ _ _ (le_n _) P C Hi) as [m ->] end.
      eapply gives_1; [exact G |]. cbn. unfold on_list. now rewrite proper_dlist.
    - unfold ellipsis_escape in H. rewrite Ea, followed_pair, Sq in H.
      apply bind_ok in H as [e1 [H1 H]]. apply bind_ok in H as [e2 [H2 H]]. injection H as <-.
      inversion J as [| | | | | | | | active s0 a0 q0 x y N Jx Jy | s0 a0 q0 n r ds y Ea' Dq Jc Jr]; subst.
      + congruence.
      + eapply gives_2; [| | reflexivity].
        * eapply IH; [exact H1 | exact Ca | | exact Jx]. eapply consistent_incl; [|exact K]. cbn. apply incl_appl, incl_refl.
        * eapply IH; [exact H2 | exact Cq | | exact Jy]. eapply consistent_incl; [|exact K]. cbn. apply incl_appr, incl_refl.
      + apply dots_starts in Dq. congruence.
    - unfold ellipsis_escape in H. rewrite Ea, followed_pair, (dots_starts _ _ _ Dq), (dots_depth _ _ _ Dq), (dots_tail _ _ _ Dq) in H.
      cbv zeta in H.
      inversion J as [| | | | | | | s0 e0 t0 d0 E0 J0 | active s0 a0 q0 x y N Jx Jy | s0 a0 q0 n' r' ds y Ea' Dq' Jc Jr]; subst.
      { congruence. }
      { destruct (N eq_refl) as [_ Sq]. apply dots_starts in Dq. congruence. }
      destruct (dots_unique _ _ _ Dq _ _ Dq') as [En <-]. injection En as <-.
      assert (Ka : consistent s vars dim a env) by (eapply consistent_incl; [|exact K]; cbn; apply incl_appl, incl_refl).
      assert (Kr : consistent s vars dim r env) by (eapply consistent_incl; [|exact K]; cbn; apply incl_appr; eapply dots_identifiers; eauto).
      destruct (free_vars a vars (dim + S n) []) as [|v0 vs0] eqn:Fv; [discriminate |].
      set (many := flatten (S n)) in H.
      assert (M : forall once, expand_template fuel a vars (dim + S n) = Ok once ->
        gives env (many (EMap (map User (v0 :: vs0)) once (map (fun x => EVar (User x)) (v0 :: vs0)))) (Ok (dlist ds))).
      { intros once Ho. unfold many. destruct An as [-> | [x ->]].
        - cbn [flatten]. replace (dim + 1) with (S dim) in * by lia. apply copies_once with (s := s) (vars := vars) (dim := dim) (a := a); auto. intros s' env' d' C' J'. eapply IH; eauto.
        - assert (v0 = x /\ vs0 = []) as [-> ->].
          { cbn in Fv. destruct (depth_in x vars) as [k |]; [|discriminate]. destruct (dim + S n <=? k); [|discriminate]. injection Fv as <- <-. auto. }
          destruct fuel as [|fuel']; [discriminate |]. cbn [SyntaxRules.expand_template] in Ho. cbn in Fv.
          specialize (Ka x (or_introl eq_refl)). destruct (depth_in x vars) as [k |]; [|discriminate].
          destruct (Nat.leb_spec (dim + S n) k) as [L1 | L1]; [|discriminate]. destruct (Nat.leb_spec k (dim + S n)) as [L2 | L2]; [|discriminate].
          injection Ho as <-. destruct Ka as [b [G [U Lk]]]. replace (k - dim) with (S n) in U by lia.
          destruct b as [d0 | l]; [contradiction |].
          rewrite (copies_leaves _ _ _ _ _ G U Jc). apply flatten_leaves; [|exact U]. cbn [image map]. apply column. exact Lk. }
      destruct (match cdr q with Nil => true | _ => false end && identifier a) eqn:Sc.
      + apply andb_true_iff in Sc as [Sc1 Sc2]. destruct a as [x | | | | | |]; try discriminate.
        destruct Dq as [e0 [q' [-> [_ Dq]]]]. cbn in Sc1. destruct q'; try discriminate.
        assert (n = 0 /\ r = Nil) as [-> ->].
        { destruct n as [|n]; [destruct Dq as [<- _]; auto |]. apply dots_starts in Dq. discriminate. }
        inversion Jr; subst. rewrite prepend_nil.
        destruct fuel as [|fuel']; [discriminate |]. cbn [SyntaxRules.expand_template] in H. cbn in Fv.
        specialize (Ka x (or_introl eq_refl)). destruct (depth_in x vars) as [k |]; [|discriminate].
        destruct (Nat.leb_spec (dim + 1) k) as [L1 | L1]; [|discriminate]. destruct (Nat.leb_spec k (dim + 1)) as [L2 | L2]; [|discriminate].
        injection H as <-. destruct Ka as [b [G [U Lk]]]. replace (k - dim) with 1 in U by lia. destruct b as [d0 | l]; [contradiction |].
        rewrite (copies_leaves _ _ _ _ _ G U Jc). apply (flatten_leaves 0); [|exact U]. now apply gives_var.
      + apply bind_ok in H as [once [Ho H]]. specialize (M once Ho).
        assert (T : (r = Nil /\ e = many (EMap (map User (v0 :: vs0)) once (map (fun x => EVar (User x)) (v0 :: vs0)))) \/
          exists e2, expand_template fuel r vars dim = Ok e2 /\ e = E2 Append (many (EMap (map User (v0 :: vs0)) once (map (fun x => EVar (User x)) (v0 :: vs0)))) e2).
        { clear -H. destruct r; try (injection H as <-; left; split; reflexivity);
            right; apply bind_ok in H as [e2 [H E]]; exists e2; (split; [exact H | now injection E]). }
        destruct T as [[-> ->] | [e2 [H2 ->]]].
        * inversion Jr; subst. now rewrite prepend_nil.
        * eapply gives_2; [exact M | eapply IH; eauto |]. cbn [apply2]. unfold on_list. rewrite proper_dlist. reflexivity.
  Qed.

  (** ** Rules *)
  Notation choose := (choose dots_ lit blank fits).
  Notation careful_rule := (careful_rule dots_ lit blank).
  Lemma rule_correct fuel p t c e c' form :
    expand_rule cmp underscore ellipsis lits fuel p t c = Ok (e, c') -> careful_pattern p = true -> NoDup (variables p) ->
    careful_template t -> (forall x, In x (identifiers t) -> blank x = false) ->
    forall args, cdr form = args -> (exists k, form = Pair k args) ->
    match matching p args with
    | Some s => forall d, instance true s t d -> gives [(Expr, Datum form)] e (Ok (Pair d (Bool false)))
    | None => gives [(Expr, Datum form)] e (Ok (Bool false))
    end.
  Proof.
    unfold expand_rule. intros H C N T B args _ [kw ->].
    apply compiler_correct in H as [bs [c1 [ek [c2 [H1 [_ [_ [_ [H2 H3]]]]]]]]]; auto.
    - rewrite app_nil_r in H1. apply bind_ok in H1 as [e' [H1 E]]. injection E as <- <-.
      assert (D : data [(Expr, Datum (Pair kw args))]) by (intros i; exact Logic.I).
      assert (X : gives [(Expr, Datum (Pair kw args))] (E1 Cdr (EVar Expr)) (Ok args)) by (eapply gives_1; [now apply gives_var | reflexivity]).
      specialize (H3 _ _ D X). destruct (matching p args) as [s |] eqn:M; [|exact H3].
      intros d J. apply H3. intros env' A G. eapply gives_2; [| apply gives_quote | reflexivity].
      apply (template_correct fuel t bs 0 e' env' s d); auto.
      intros x I. rewrite (H2 x (B x I)). destruct (depth_in x (depths p 0)) as [k |] eqn:Dx.
      + assert (Ix : In x (map fst s)).
        { rewrite (matching_keys p _ _ M), <- (depths_variables p 0). destruct (in_dec Nat.eq_dec x (map fst (depths p 0))) as [Y | Y]; [exact Y |].
          apply depth_in_none in Y. congruence. }
        apply get_some in Ix as [b Hb]. exists b. split; [exact Hb |]. split; [|now apply G].
        exact (get_depth s (depths p 0) x b k (fun b k => uniform (k - 0) b) (matching_uniform p args s 0 N M) Hb Dx).
      + apply get_none. rewrite (matching_keys p _ _ M), <- (depths_variables p 0). now apply depth_in_none.
    - intros vs c0 e0 c0' E. apply bind_ok in E as [e1 [_ E]]. injection E as <- <-. lia.
  Qed.
  Lemma rules_correct fuel kw args : forall rules c e,
    expand_rules cmp underscore ellipsis lits fuel rules c = Ok e -> Forall careful_rule rules ->
    match choose rules args with
    | Some (s, t) => forall d, instance true s t d -> gives [(Expr, Datum (Pair kw args))] e (Ok (Pair d (Bool false)))
    | None => gives [(Expr, Datum (Pair kw args))] e Bad
    end.
  Proof.
    induction rules as [|[p t] rules IH]; intros c e H C.
    - cbn in H. injection H as <-. apply (gives_intro _ _ _ _ _ _ 2); [discriminate | reflexivity].
    - cbn [expand_rules] in H. apply bind_ok in H as [[a c1] [H1 H]]. apply bind_ok in H as [b [H2 H]]. injection H as <-.
      inversion C as [|r rs [k [p' [E [C1 [C2 [C3 C4]]]]]] Cs]; subst r rs. cbn in E, C3, C4. subst p. cbn [cdr] in H1.
      cbn [SyntaxRulesSpec.choose]. specialize (IH _ _ H2 Cs).
      pose proof (rule_correct fuel p' t c a c1 (Pair kw args) H1 C1 C2 C3 C4 args eq_refl (ex_intro _ kw eq_refl)) as R.
      destruct (matching p' args) as [s |].
      + intros d J. apply gives_or; [reflexivity |]. now apply R.
      + destruct (choose rules args) as [[s t'] |].
        * intros d J. apply gives_or_false; [exact R | now apply IH].
        * apply gives_or_false; assumption.
  Qed.
  Lemma transformer_correct fuel rules e kw args :
    transformer cmp underscore ellipsis lits fuel rules = Ok e -> Forall careful_rule rules ->
    match choose rules args with
    | Some (s, t) => forall d, instance true s t d -> exists n, forall m, n <= m -> expand rename compare global m e (Pair kw args) = Ok d
    | None => exists n, forall m, n <= m -> expand rename compare global m e (Pair kw args) = Bad
    end.
  Proof.
    unfold transformer. intros H C. apply bind_ok in H as [b [H E]]. injection E as <-.
    pose proof (rules_correct fuel kw args rules 0 b H C) as R. destruct (choose rules args) as [[s t] |].
    - intros d J. apply R in J. apply gives_at. eapply gives_1; [exact J | reflexivity].
    - apply gives_at in R as [n R]. exists (S n). intros [|m] L; [lia |]. unfold expand. cbn [eval]. rewrite R by lia. reflexivity.
  Qed.

  (** ** Syntax errors *)
  Hypothesis symmetric : forall e, cmp e ellipsis = cmp ellipsis e.
  Notation legal_pattern := (legal_pattern dots_).
  Notation legal_template := (legal_template dots_ lit blank).
  Notation legal_rule := (legal_rule dots_ lit blank).
  Notation level := (level dots_ lit blank).
  Lemma depths_level p x : forall dim, depth_in x (depths p dim) = match level p x with Some n => Some (dim + n) | None => None end.
  Proof.
    induction p as [y | | l IH | b | n | n | a e r H IHa IHr | a q H IHa IHq] using pattern_ind; intros dim; try reflexivity.
    - cbn. destruct (lit y || blank y); [reflexivity |]. cbn. destruct (x =? y); [now rewrite Nat.add_0_r | reflexivity].
    - apply IH.
    - rewrite depths_ellipsis, depth_in_app, IHa, IHr by exact H. cbn. rewrite H. destruct (level a x); [f_equal; lia | reflexivity].
    - rewrite depths_pair, depth_in_app, IHa, IHq by exact H.
      change (level (Pair a q) x) with (if starts q then match level a x with Some n => Some (S n) | None => match q with Pair _ r => level r x | _ => None end end
                                        else match level a x with Some n => Some n | None => level q x end).
      rewrite H. destruct (level a x); reflexivity.
  Qed.
  Lemma any_ellipsis r : any (fun x => identifier x && cmp x ellipsis) r = negb (no_ellipsis dots_ r).
  Proof.
    induction r as [| | a _ d IH | | | |]; cbn; try reflexivity. rewrite IH, symmetric, negb_andb, negb_involutive. f_equal.
    destruct (dots_ a) eqn:E; [|apply andb_false_r]. now rewrite (ellipsis_identifier a E).
  Qed.
  Lemma legal_ellipsis a e r : dots_ e = true -> legal_pattern (Pair a (Pair e r)) = legal_pattern a && (no_ellipsis dots_ r && legal_pattern r).
  Proof. intros E. cbn. now rewrite E. Qed.
  Lemma legal_pair a q : starts q = false -> legal_pattern (Pair a q) = legal_pattern a && legal_pattern q.
  Proof. intros E. cbn. now rewrite E. Qed.
  Lemma legal_swapped a e r : dots_ e = true -> legal_pattern (swapped a e r) = legal_pattern r && legal_pattern a.
  Proof.
    intros E. unfold swapped. rewrite legal_pair by apply starts_swapped. rewrite legal_pair by reflexivity. rewrite legal_ellipsis by exact E. cbn.
    now rewrite !andb_true_r.
  Qed.
  (** What is accepted is legal *)
  Lemma pattern_legal fuel : forall p x dim vars (k : continuation) c r, expand_pattern fuel p x dim vars k c = Ok r ->
    legal_pattern p = true /\ exists vars' c1 r', k vars' c1 = Ok r'.
  Proof.
    induction fuel as [|fuel IH]; intros p x dim vars k c r0 H; [discriminate |].
    destruct (pattern_cases p) as [[i ->] | [-> | [[l ->] | [K | [[a [el [r [-> [E Nr]]]]] | [[i [el [-> E]]] | [[a [el [-> [E Na]]]] | [a [q [-> E]]]]]]]]]].
    - split; [reflexivity |]. cbn [SyntaxRules.expand_pattern] in H. apply bind_pair in H as [e1 [c1 [H _]]].
      destruct (literal cmp lits (Id i)); [|destruct (cmp (Id i) underscore)]; [|eauto|]; apply bind_pair in H as [e2 [c2 [H _]]]; eauto.
    - split; [reflexivity |]. cbn [SyntaxRules.expand_pattern] in H. apply bind_pair in H as [e1 [c1 [H _]]]. apply bind_pair in H as [e2 [c2 [H _]]]. eauto.
    - cbn [SyntaxRules.expand_pattern] in H. apply bind_pair in H as [e1 [c1 [H _]]]. apply bind_pair in H as [e2 [c2 [H _]]]. now apply IH in H.
    - split; [destruct p; try contradiction; reflexivity |].
      destruct p; try contradiction; cbn [SyntaxRules.expand_pattern] in H; apply bind_pair in H as [e1 [c1 [H _]]]; apply bind_pair in H as [e2 [c2 [H _]]]; eauto.
    - rewrite expand_tail in H by assumption. rewrite any_ellipsis in H. destruct (no_ellipsis dots_ r) eqn:Nd; [|discriminate]. cbn [negb] in H.
      apply bind_pair in H as [e2 [c2 [H _]]]. apply IH in H as [H Hk]. split; [|exact Hk]. fold (swapped a el r) in H. rewrite legal_swapped in H by exact E.
      apply andb_true_iff in H as [H1 H2]. rewrite legal_ellipsis, Nd, H1, H2 by exact E. reflexivity.
    - rewrite legal_ellipsis by exact E. split; [reflexivity |]. rewrite expand_sequence in H by assumption. apply bind_pair in H as [e2 [c2 [H _]]]. eauto.
    - rewrite expand_loop in H by assumption. cbv zeta in H. apply bind_pair in H as [e2 [c2 [H H']]]. apply bind_pair in H' as [e3 [c3 [H' _]]].
      apply IH in H as [H _]. rewrite legal_ellipsis, H by exact E. split; [reflexivity | eauto].
    - rewrite expand_pair in H by assumption. apply bind_pair in H as [e2 [c2 [H _]]]. apply IH in H as [H [vars' [c1 [r' H']]]].
      apply IH in H' as [H1 H2]. split; [|exact H2]. rewrite legal_pair, H, H1 by exact E. reflexivity.
  Qed.
  (** the depths of the variables for the compiler *)
  Definition right (vars : list (nat * nat)) (p : datum) : Prop := forall x, blank x = false -> depth_in x vars = level p x.
  Lemma template_legal p fuel : forall t vars dim e, right vars p -> (forall x, In x (identifiers t) -> blank x = false) -> careful_template t ->
    expand_template fuel t vars dim = Ok e -> legal_template p dim t.
  Proof.
    induction fuel as [|fuel IH]; intros t vars dim e R B C H; [discriminate |].
    destruct C as [x | | b | n | n | l P C | a q Ea Sq Ca Cq | a q n r Ea Dq An Ca Cr]; cbn [SyntaxRules.expand_template] in H; try (constructor; fail).
    - constructor. intros n Hn. rewrite <- R in Hn by (apply B; now left). rewrite Hn in H. destruct (Nat.leb_spec n dim); [assumption | discriminate].
    - apply bind_ok in H as [e1 [H _]]. constructor. eapply IH; eauto.
    - unfold ellipsis_escape in H. rewrite Ea, followed_pair, Sq in H. apply bind_ok in H as [e1 [H1 H]]. apply bind_ok in H as [e2 [H2 _]].
      cbn in B. apply L_pair; auto.
      + eapply IH; eauto. intros x I. apply B, in_or_app. now left.
      + eapply IH; eauto. intros x I. apply B, in_or_app. now right.
    - unfold ellipsis_escape in H. rewrite Ea, followed_pair, (dots_starts _ _ _ Dq), (dots_depth _ _ _ Dq), (dots_tail _ _ _ Dq) in H.
      cbv zeta in H. destruct (free_vars a vars (dim + S n) []) as [|v0 vs0] eqn:Fv; [discriminate |].
      assert (Iv : In v0 (free_vars a vars (dim + S n) [])) by (rewrite Fv; now left).
      apply free_vars_in in Iv as [[] | [Iv Dv]].
      assert (Bv : blank v0 = false) by (apply B; cbn; apply in_or_app; now left).
      assert (Ba : forall x, In x (identifiers a) -> blank x = false) by (intros x I; apply B; cbn; apply in_or_app; now left).
      assert (Br : forall x, In x (identifiers r) -> blank x = false).
      { intros x I. apply B. cbn. apply in_or_app. right. eapply dots_identifiers; eauto. }
      rewrite R in Dv by exact Bv. destruct (level p v0) as [k |] eqn:Lv; [|contradiction].
      assert (X : (exists e1, expand_template fuel a vars (dim + S n) = Ok e1) /\ (r = Nil \/ exists e2, expand_template fuel r vars dim = Ok e2)).
      { destruct (match cdr q with Nil => true | _ => false end && identifier a) eqn:Sc.
        - split; [eauto | left]. apply andb_true_iff in Sc as [Sc1 _]. destruct Dq as [e0 [q' [-> [_ Dq]]]]. cbn in Sc1. destruct q'; try discriminate.
          destruct n as [|n]; [destruct Dq as [<- _]; auto |]. apply dots_starts in Dq. discriminate.
        - apply bind_ok in H as [once [Ho H]]. split; [eauto |].
          destruct r; try (now left); right; apply bind_ok in H as [e2 [H _]]; eauto. }
      destruct X as [[e1 X1] X2]. apply L_ellipsis with (n := n) (r := r) (x := v0) (k := k); auto.
      + eapply IH; eauto.
      + destruct X2 as [-> | [e2 X2]]; [constructor | eapply IH; eauto].
  Qed.
  (** What is legal is accepted *)
  Fixpoint size (t : datum) : nat := match t with Pair a d => S (size a + size d) | Vec l => S (size l) | _ => 1 end.
  Lemma dots_size n q r : dots n q r -> size r <= size q.
  Proof. revert q. induction n as [|n IH]; intros q H; [destruct H as [-> _]; lia |]. destruct H as [e [q' [-> [_ H]]]]. apply IH in H. cbn. lia. Qed.
  Lemma template_total p fuel : forall t vars dim, right vars p -> (forall x, In x (identifiers t) -> blank x = false) -> legal_template p dim t ->
    size t <= fuel -> exists e, expand_template fuel t vars dim = Ok e.
  Proof.
    induction fuel as [|fuel IH]; intros t vars dim R B C L; [destruct t; cbn in L; lia |].
    destruct C as [dim x Hx | dim | dim b | dim n | dim n | dim l C | dim a q Ea Sq Ca Cq | dim a q n r x k Ea Dq Ix Lx Lk Ca Cr]; cbn [SyntaxRules.expand_template];
      try (eexists; reflexivity).
    - rewrite R by (apply B; now left). destruct (level p x) as [n |]; [|eauto]. specialize (Hx n eq_refl). apply Nat.leb_le in Hx. rewrite Hx. eauto.
    - cbn in L. destruct (IH l vars dim R B C) as [e He]; [lia |]. rewrite He. cbn. eauto.
    - cbn in L, B. unfold ellipsis_escape. rewrite Ea, followed_pair, Sq.
      destruct (IH a vars dim R) as [e1 H1]; [intros x I; apply B, in_or_app; now left | assumption | lia |].
      destruct (IH q vars dim R) as [e2 H2]; [intros x I; apply B, in_or_app; now right | assumption | lia |].
      rewrite H1. cbn [bind]. rewrite H2. cbn. eauto.
    - unfold ellipsis_escape. rewrite Ea, followed_pair, (dots_starts _ _ _ Dq), (dots_depth _ _ _ Dq), (dots_tail _ _ _ Dq). cbv zeta.
      cbn in L, B. pose proof (dots_size _ _ _ Dq) as Sr.
      assert (Br : forall x, In x (identifiers r) -> blank x = false).
      { intros y I. apply B. apply in_or_app. right. eapply dots_identifiers; eauto. }
      destruct (free_vars a vars (dim + S n) []) as [|v0 vs0] eqn:Fv.
      { exfalso. assert (I : In x (free_vars a vars (dim + S n) [])); [|rewrite Fv in I; contradiction].
        apply free_vars_in. right. split; [exact Ix |]. rewrite R by (apply B, in_or_app; now left). now rewrite Lx. }
      destruct (IH a vars (dim + S n) R) as [e1 H1]; [intros y I; apply B, in_or_app; now left | assumption | lia |].
      destruct (IH r vars dim R Br Cr) as [e2 H2]; [lia |].
      rewrite H1. cbn [bind]. destruct (_ && _); [eauto |]. destruct r; rewrite ?H2; cbn [bind]; eauto.
  Qed.
  Fixpoint weight (p : datum) : nat :=
    match p with
    | Pair a q =>
      if starts q then match q with Pair _ Nil => 8 + weight a | Pair _ r => 20 + weight a + weight r | _ => 1 end
      else S (weight a + weight q)
    | Vec l => S (weight l)
    | _ => 1
    end.
  Lemma weight_tail a e r : dots_ e = true -> r <> Nil -> weight (Pair a (Pair e r)) = 20 + weight a + weight r.
  Proof. intros E N. cbn [weight SyntaxRulesSpec.starts]. rewrite E. destruct r; congruence. Qed.
  Lemma weight_last a e : dots_ e = true -> weight (Pair a (Pair e Nil)) = 8 + weight a.
  Proof. intros E. cbn [weight SyntaxRulesSpec.starts]. now rewrite E. Qed.
  Lemma weight_pair a q : starts q = false -> weight (Pair a q) = S (weight a + weight q).
  Proof. intros E. cbn [weight]. now rewrite E. Qed.
  Lemma weight_swapped a e r : dots_ e = true -> weight (swapped a e r) = 11 + weight a + weight r.
  Proof. intros E. unfold swapped. rewrite weight_pair by apply starts_swapped. rewrite weight_pair by reflexivity. rewrite weight_last by exact E. cbn [weight]. lia. Qed.
  Lemma weight_positive p : 1 <= weight p.
  Proof.
    destruct p as [| | a q | | | |]; cbn [weight]; try lia. destruct (starts q); [|lia]. destruct q as [| | e r | | | |]; try lia. destruct r; lia.
  Qed.
  Lemma pattern_total fuel : forall p x dim vars (k : continuation) c, weight p <= fuel -> legal_pattern p = true -> careful_pattern p = true -> NoDup (variables p) ->
    (forall bs c1, (forall i, blank i = false -> depth_in i bs = depth_in i (depths p dim)) -> exists r, k (bs ++ vars) c1 = Ok r) ->
    exists r, expand_pattern fuel p x dim vars k c = Ok r.
  Proof.
    induction fuel as [|fuel IH]; intros p x dim vars k c W G C N K; [pose proof (weight_positive p); lia |].
    destruct (pattern_cases p) as [[i ->] | [-> | [[l ->] | [Kp | [[a [el [r [-> [E Nr]]]]] | [[i [el [-> E]]] | [[a [el [-> [E Na]]]] | [a [q [-> E]]]]]]]]]].
    - cbn [SyntaxRules.expand_pattern]. rewrite literal_spec. fold (blank i). destruct (lit i) eqn:Li.
      + destruct (K [] (S c)) as [[e1 c1] H]; [intros j _; cbn; now rewrite Li |]. cbn [app] in H. rewrite H. cbn. eauto.
      + destruct (blank i) eqn:Bi.
        * destruct (K [] (S c)) as [[e1 c1] H]; [intros j _; cbn; now rewrite Bi, orb_true_r |]. cbn [app] in H. rewrite H. cbn. eauto.
        * destruct (K [(i, dim)] (S c)) as [[e1 c1] H]; [intros j _; cbn; now rewrite Li, Bi |]. cbn [app] in H. rewrite H. cbn. eauto.
    - cbn [SyntaxRules.expand_pattern]. destruct (K [] (S c)) as [[e1 c1] H]; [reflexivity |]. cbn [app] in H. rewrite H. cbn. eauto.
    - cbn [SyntaxRules.expand_pattern]. cbn in W. destruct (IH l (E1 VectorToList (EVar (Fresh (S c)))) dim vars k (S c)) as [[e1 c1] H]; auto; [lia |]. rewrite H. cbn. eauto.
    - destruct (K [] (S c)) as [[e1 c1] H]; [destruct p; try contradiction; reflexivity |]. cbn [app] in H.
      destruct p; try contradiction; cbn [SyntaxRules.expand_pattern]; rewrite H; cbn; eauto.
    - rewrite expand_tail by assumption. rewrite any_ellipsis. rewrite legal_ellipsis in G by exact E.
      apply andb_true_iff in G as [G1 G2]. apply andb_true_iff in G2 as [G2 G3]. rewrite G2. cbn [negb]. fold (swapped a el r).
      rewrite weight_tail in W by assumption.
      apply careful_ellipsis in C as [C1 [C2 C3]]; [|exact E].
      rewrite variables_ellipsis in N by exact E. apply NoDup_app_parts in N as [N1 [N2 N3]].
      assert (Cs : careful_pattern (swapped a el r) = true).
      { unfold swapped. cbn [SyntaxRulesSpec.careful_pattern]. rewrite starts_swapped, C3. cbn [SyntaxRulesSpec.starts SyntaxRulesSpec.careful_pattern].
        rewrite E, C2. destruct a; try reflexivity. now rewrite C1. }
      assert (Vs : variables (swapped a el r) = variables r ++ (variables a ++ []) ++ []).
      { unfold swapped. rewrite variables_pair by apply starts_swapped. rewrite variables_pair by reflexivity. now rewrite variables_ellipsis by exact E. }
      assert (Ds : depths (swapped a el r) dim = depths r dim ++ (depths a (S dim) ++ []) ++ []).
      { unfold swapped. rewrite depths_pair by apply starts_swapped. rewrite depths_pair by reflexivity. now rewrite depths_ellipsis by exact E. }
      match goal with |- exists r0, bind (expand_pattern fuel ?p ?x ?d ?v ?k ?c) _ = _ => destruct (IH p x d v k c) as [[e1 c1] H] end.
      + rewrite weight_swapped by exact E. lia.
      + rewrite legal_swapped, G1, G3 by exact E. reflexivity.
      + exact Cs.
      + rewrite Vs, !app_nil_r. apply NoDup_app_intro; auto. intros y I J. now apply (N3 y).
      + intros bs c1 Hb. apply K. intros j B. rewrite (Hb j B), Ds, depths_ellipsis, !app_nil_r, !depth_in_app by exact E.
        destruct (depth_in j (depths a (S dim))) as [n |] eqn:Ea; destruct (depth_in j (depths r dim)) as [n' |] eqn:Er; try reflexivity. exfalso.
        apply (N3 j).
        * destruct (in_dec Nat.eq_dec j (variables a)) as [I | I]; [exact I |]. rewrite <- (depths_variables a (S dim)) in I. apply depth_in_none in I. congruence.
        * destruct (in_dec Nat.eq_dec j (variables r)) as [I | I]; [exact I |]. rewrite <- (depths_variables r dim) in I. apply depth_in_none in I. congruence.
      + rewrite H. cbn. eauto.
    - rewrite expand_sequence by assumption. apply careful_ellipsis in C as [C1 [C2 C3]]; [|exact E].
      destruct (K [(i, S dim)] (S c)) as [[e1 c1] H].
      + intros j B. rewrite depths_ellipsis by exact E. cbn. rewrite C1. cbn. destruct (blank i) eqn:Bi; [|reflexivity]. cbn.
        destruct (Nat.eqb_spec j i) as [-> | Nj]; [congruence | reflexivity].
      + cbn [app] in H. rewrite H. cbn. eauto.
    - rewrite expand_loop by assumption. cbv zeta. rewrite weight_last in W by exact E. rewrite legal_ellipsis in G by exact E. apply andb_true_iff in G as [G1 _].
      apply careful_ellipsis in C as [C1 [C2 C3]]; [|exact E]. rewrite variables_ellipsis in N by exact E. apply NoDup_app_parts in N as [N1 _].
      match goal with |- exists r0, bind (expand_pattern fuel ?p ?x ?d ?v ?k ?c) _ = _ => destruct (IH p x d v k c) as [[e1 c1] H] end; auto; [lia | eauto |].
      rewrite H. cbn [bind]. destruct (K (all_vars a (S dim) []) c1) as [[e2 c2] H2].
      + intros j B. rewrite depths_ellipsis, app_nil_r by exact E. now apply all_vars_depths.
      + rewrite H2. cbn. eauto.
    - rewrite expand_pair by assumption. rewrite weight_pair in W by exact E. rewrite legal_pair in G by exact E. apply andb_true_iff in G as [G1 G2].
      apply careful_pair in C as [C1 C2]; [|exact E]. rewrite variables_pair in N by exact E. apply NoDup_app_parts in N as [N1 [N2 N3]].
      match goal with |- exists r0, bind (expand_pattern fuel ?p ?x ?d ?v ?k ?c) _ = _ => destruct (IH p x d v k c) as [[e1 c1] H] end; auto; [lia | |].
      + intros bs c1 Hb. apply IH; auto; [lia |]. intros bs' c2 Hb'. rewrite app_assoc. apply K.
        intros j B. rewrite depths_pair, !depth_in_app, (Hb j B), (Hb' j B) by exact E.
        destruct (depth_in j (depths a dim)) as [n |] eqn:Ea; destruct (depth_in j (depths q dim)) as [n' |] eqn:Er; try reflexivity. exfalso.
        apply (N3 j).
        * destruct (in_dec Nat.eq_dec j (variables a)) as [I | I]; [exact I |]. rewrite <- (depths_variables a dim) in I. apply depth_in_none in I. congruence.
        * destruct (in_dec Nat.eq_dec j (variables q)) as [I | I]; [exact I |]. rewrite <- (depths_variables q dim) in I. apply depth_in_none in I. congruence.
      + rewrite H. cbn. eauto.
  Qed.
  Lemma rule_accepted p t : careful_pattern p = true -> NoDup (variables p) -> careful_template t -> (forall x, In x (identifiers t) -> blank x = false) ->
    (legal_pattern p = true /\ legal_template p 0 t -> forall c fuel, weight p + size t <= fuel -> exists r, expand_rule cmp underscore ellipsis lits fuel p t c = Ok r) /\
    (forall fuel c r, expand_rule cmp underscore ellipsis lits fuel p t c = Ok r -> legal_pattern p = true /\ legal_template p 0 t).
  Proof.
    intros C N T B. split.
    - intros [G1 G2] c fuel L. unfold expand_rule. apply pattern_total; auto; [lia |]. intros bs c1 Hb. rewrite app_nil_r.
      destruct (template_total p fuel t bs 0) as [e He]; auto; [| lia | rewrite He; cbn; eauto].
      intros x Bx. rewrite (Hb x Bx), depths_level. destruct (level p x); reflexivity.
    - intros fuel c [e c'] H. unfold expand_rule in H. split; [now apply pattern_legal in H |].
      apply compiler_correct in H as [bs [c1 [ek [c2 [H1 [_ [_ [_ [H2 _]]]]]]]]]; auto.
      + rewrite app_nil_r in H1. apply bind_ok in H1 as [e' [H1 _]]. eapply template_legal; eauto.
        intros x Bx. rewrite (H2 x Bx), depths_level. destruct (level p x); reflexivity.
      + intros vs c0 e0 c0' E. apply bind_ok in E as [e1 [_ E]]. injection E as <- <-. lia.
  Qed.
  Lemma transformer_accepts rules : Forall careful_rule rules ->
    (Forall legal_rule rules <-> exists n e, transformer cmp underscore ellipsis lits n rules = Ok e) /\
    (Forall legal_rule rules -> exists n, forall m, n <= m -> exists e, transformer cmp underscore ellipsis lits m rules = Ok e).
  Proof.
    intros C.
    assert (A : Forall legal_rule rules -> exists n, forall m c, n <= m -> exists e, expand_rules cmp underscore ellipsis lits m rules c = Ok e).
    { induction C as [|[p t] rules [k [p' [E [C1 [C2 [C3 C4]]]]]] Cs IH]; intros G; [exists 0; cbn; eauto |]. cbn in E, C3, C4. subst p.
      inversion G as [|r rs [k' [p [E [G1 G2]]]] Gs]; subst r rs. cbn in E, G2. injection E as <- <-.
      destruct (IH Gs) as [n1 H1]. exists (n1 + (weight p' + size t)). intros m c L. cbn [expand_rules cdr].
      destruct (proj1 (rule_accepted p' t C1 C2 C3 C4) (conj G1 G2) c m) as [[e1 c1] H]; [lia |]. rewrite H. cbn [bind].
      destruct (H1 m c1) as [e2 H2]; [lia |]. rewrite H2. cbn. eauto. }
    assert (B : forall n c e, expand_rules cmp underscore ellipsis lits n rules c = Ok e -> Forall legal_rule rules).
    { clear A. induction C as [|[p t] rules [k [p' [E [C1 [C2 [C3 C4]]]]]] Cs IH]; intros n c e H; [constructor |]. cbn in E, C3, C4. subst p.
      cbn [expand_rules cdr] in H. apply bind_ok in H as [[e1 c1] [H1 H]]. apply bind_ok in H as [e2 [H2 _]]. constructor; [|now apply IH in H2].
      exists k, p'. split; [reflexivity |]. now apply (rule_accepted p' t C1 C2 C3 C4) in H1. }
    assert (D : Forall legal_rule rules -> exists n, forall m, n <= m -> exists e, transformer cmp underscore ellipsis lits m rules = Ok e).
    { intros G. destruct (A G) as [n H]. exists n. intros m L. destruct (H m 0 L) as [e He]. unfold transformer. rewrite He. cbn. eauto. }
    split; [split |]; auto.
    - intros G. destruct (D G) as [n H]. exists n. apply H, le_n.
    - intros [n [e H]]. unfold transformer in H. apply bind_ok in H as [b [H _]]. now apply B in H.
  Qed.
End Patterns.
