(** An expansion has one meaning (C105): the rules of [means] do not overlap. *)
From Coq Require Import String List Bool Arith Lia FunctionalExtensionality.
From Verif Require Import SyntaxRules Macros MacrosSpec MacrosProofs MacrosEval Guard GuardProofs.
Import ListNotations.
Local Open Scope nat_scope.
Local Arguments sym : simpl never.

Lemma own_odd x : own x -> Nat.even x = false.
Proof. intros (k & _ & H). exact (is_odd _ _ H). Qed.
Ltac not_plain := match goal with
  | P : plain (Pair _ _) = true |- _ => cbn [plain] in P
  | P : (_ && _)%bool = true |- _ => apply andb_true_iff in P; destruct P
  | P : plain (dlist (_ :: _)) = true |- _ => cbn [dlist] in P
  end.
Ltac clash := exfalso; repeat not_plain; match goal with
  | I : is _ ?h, E : Nat.even ?h = true |- _ => rewrite (is_odd _ _ I) in E; discriminate E
  | I : is _ ?h, E : plain (Id ?h) = true |- _ => cbn [plain] in E; rewrite (is_odd _ _ I) in E; discriminate E
  | I : own ?h, E : plain (Id ?h) = true |- _ => cbn [plain] in E; rewrite (own_odd _ I) in E; discriminate E
  | I : own ?h, E : Nat.even ?h = true |- _ => rewrite (own_odd _ I) in E; discriminate E
  | I : own ?h, J : is _ ?h |- _ => destruct I as (? & In_ & I); cbn [In] in In_; decompose [or] In_; subst; try contradiction; differ
  end.
Section Meaning.
Context {value state loc dyn answer : Type}.
Context (user user_seq user_body : datum -> env loc -> computation value state dyn answer).
Context (call : value -> list value -> computation value state dyn answer) (alloc : state -> value -> loc * state) (truth : value -> bool).
Context (raise_continuable : value -> computation value state dyn answer) (wrong : state -> answer).
Context (push : dyn -> (value -> computation value state dyn answer) -> dyn) (reroot : dyn -> dyn -> (state -> answer) -> state -> answer).
Notation means := (means value state loc dyn answer user user_seq user_body call alloc truth raise_continuable wrong push reroot).
Ltac same_held := match goal with A : ?t ?x = Some ?a, B : ?t ?x = Some ?b |- _ => tryif constr_eq a b then fail else (rewrite A in B; injection B as B; subst) end.
Lemma means_det u t r d c c' : means u t r d c -> means u t r d c' -> c = c'.
Proof.
  intros H. revert c'. induction H; intros c' H'; inversion H'; subst; try reflexivity; try (differ || clash).
  all: repeat same_held; try reflexivity.
  all: try (match goal with A : aux_expands _ _ ?a, B : aux_expands _ _ ?b |- _ => assert (a = b) by exact (aux_det _ _ _ _ A B); subst end).
  all: repeat match goal with IH : forall c', means _ _ _ ?e c' -> ?c = c', M : means _ _ _ ?e ?c2 |- _ => apply IH in M; subst end.
  all: repeat match goal with
    | IH : forall v c', means _ _ _ ?e c' -> ?c v = c', M : forall v, means _ _ _ ?e (?c2 v) |- _ =>
        assert (c = c2) by (apply functional_extensionality; intros ?v; exact (IH v _ (M v))); subst; clear M
    | IH : forall v w c', means _ _ _ ?e c' -> ?c v w = c', M : forall v w, means _ _ _ ?e (?c2 v w) |- _ =>
        assert (c = c2) by (do 2 (apply functional_extensionality; intro); apply IH, M); subst; clear M
    end.
  all: try reflexivity.
Qed.
End Meaning.
