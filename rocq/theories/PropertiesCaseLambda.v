(** * C106: case-lambda *)
From Coq Require Import String List Bool Arith Lia.
From Verif Require Import SyntaxRules Macros MacrosSpec MacrosProofs CaseLambda CaseLambdaRuns.
Import ListNotations.
Local Open Scope nat_scope.

(** Whatever the bodies compute, a case-lambda expression has one expansion, whose value is a procedure that, called with any arguments in any
    state, evaluates the body of the first clause whose formals accept as many arguments, with its variables in new locations that hold the arguments;
    if there is none it calls error. *)
Theorem C106_case_lambda :
  forall (value state loc answer : Type) (user_body : datum -> env loc -> state -> answer -> Prop) (alloc : state -> value -> loc * state)
    (list_of : state -> list value -> value * state) (error : state -> answer) (u : nat) (keyword : datum) (cs : list (formals * list datum)),
  Forall clause_ok cs ->
  exists d, (forall d', expands case_lambda_text u (case_lambda_form keyword cs) d' <-> d' = d) /\
    forall r vs s a, calls value state loc answer user_body alloc list_of error (S u) r d vs s a <->
      case_lambda_means value state loc answer user_body alloc list_of error cs r vs s a.
Proof.
  intros. destruct (case_lambda_ok user_body alloc list_of error u keyword cs) as (d & X & M); [assumption|].
  exists d. split; [|exact M]. intros d'. split; [intros Y; exact (expands_det _ _ _ _ _ Y X)|intros ->; exact X].
Qed.
Print Assumptions C106_case_lambda.

(** ** Example *)
(** Values are numbers and lists of numbers, the state is the store; the body #(n x) has the outcome n and the value of x *)
Inductive outcome_ := Done (n : nat) (v : list nat) | Error.
Definition alloc_ (s : list (list nat)) (v : list nat) : nat * list (list nat) := (length s, s ++ [v]).
Definition list_ (s : list (list nat)) (vs : list (list nat)) : list nat * list (list nat) := (concat vs, s).
Definition body_ (b : datum) (r : env nat) (s : list (list nat)) (a : outcome_) : Prop :=
  exists n x l v, b = dlist [Vec (dlist [Int n; Id x])] /\ r x = Some l /\ nth_error s l = Some v /\ a = Done n v.
(** (case-lambda ((x) x, 1) ((x y) y, 2) ((x y . z) z, 3) ((x) x, 4)), x = 1000, y = 1002, z = 1004 *)
Definition clauses_ : list (formals * list datum) :=
  [(Formals [1000] None, [Vec (dlist [Int 1; Id 1000])]); (Formals [1000; 1002] None, [Vec (dlist [Int 2; Id 1002])]);
   (Formals [1000; 1002] (Some 1004), [Vec (dlist [Int 3; Id 1004])]); (Formals [1000] None, [Vec (dlist [Int 4; Id 1000])])].
Notation means_ := (case_lambda_means (list nat) (list (list nat)) nat outcome_ body_ alloc_ list_ (fun _ => Error)).
Example C106_ex_one : means_ clauses_ (fun _ => None) [[7]] [] (Done 1 [7]).
Proof. eapply CL_this; [reflexivity|apply (T_all list_ [1000]); reflexivity|reflexivity|]. exists 1, 1000, 0, [7]. repeat split. Qed.
Example C106_ex_rest : means_ clauses_ (fun _ => None) [[7]; [8]; [9]; [10]] [] (Done 3 [9; 10]).
Proof.
  apply CL_next; [discriminate|]. apply CL_next; [discriminate|].
  eapply CL_this; [cbn; lia|apply (T_rest list_ [1000; 1002] 1004 [[7]; [8]] [[9]; [10]]); reflexivity|reflexivity|]. exists 3, 1004, 2, [9; 10]. repeat split.
Qed.
Example C106_ex_none : means_ clauses_ (fun _ => None) [] [] Error.
Proof. do 4 (apply CL_next; [cbn; lia|]). constructor. Qed.
(** and so does the expansion *)
Example C106_ex_clauses : Forall clause_ok clauses_ /\ exists d, expands case_lambda_text 5 (case_lambda_form Nil clauses_) d /\
  calls (list nat) (list (list nat)) nat outcome_ body_ alloc_ list_ (fun _ => Error) 6 (fun _ => None) d [[7]; [8]; [9]; [10]] [] (Done 3 [9; 10]) /\
  calls (list nat) (list (list nat)) nat outcome_ body_ alloc_ list_ (fun _ => Error) 6 (fun _ => None) d [] [] Error.
Proof.
  assert (Ok : Forall clause_ok clauses_) by (repeat constructor).
  split; [exact Ok|]. destruct (C106_case_lambda _ _ _ _ body_ alloc_ list_ (fun _ => Error) 5 Nil clauses_ Ok) as (d & X & M).
  exists d. split; [now apply X|]. split; apply M; [exact C106_ex_rest|exact C106_ex_none].
Qed.
