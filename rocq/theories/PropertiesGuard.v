(** * C105: guard *)
From Coq Require Import String List Bool Arith Lia.
From Verif Require Import SyntaxRules Macros MacrosSpec MacrosProofs Guard GuardProofs GuardMeaning.
Import ListNotations.
Local Open Scope nat_scope.

(** Whatever the expressions inside mean, whatever dynamic environments are and passing between them does, a guard expression has one
    expansion, and it means what R7RS says: the body runs in a new extent with a handler; the handler returns to the dynamic environment and
    the continuation of the guard expression, binds the variable to the object in a new location and evaluates the clauses as cond does;
    if no clause applies it goes back to where it was called and raises the object again there; the values of the body are those of the guard
    expression. *)
Theorem C105_guard :
  forall (value state loc dyn answer : Type)
    (user user_seq user_body : datum -> env loc -> computation value state dyn answer) (call : value -> list value -> computation value state dyn answer)
    (alloc : state -> value -> loc * state) (truth : value -> bool) (raise_continuable : value -> computation value state dyn answer) (wrong : state -> answer)
    (push : dyn -> (value -> computation value state dyn answer) -> dyn) (reroot : dyn -> dyn -> (state -> answer) -> state -> answer)
    (u : nat) (keyword : datum) (x : nat) (cs : list clause) (body : list datum),
  Nat.even x = true -> cs <> [] -> clauses_ok cs -> body <> [] -> plain (dlist body) = true ->
  exists d, (forall d', expands guard_text u (guard_form keyword x cs body) d' <-> d' = d) /\
    forall t r, means value state loc dyn answer user user_seq user_body call alloc truth raise_continuable wrong push reroot (S u) t r d
      (guard_means value state loc dyn answer user user_seq user_body call alloc truth raise_continuable wrong push reroot x cs (dlist body) r).
Proof.
  intros. destruct (guard_ok user user_seq user_body call alloc truth raise_continuable wrong push reroot u keyword x cs body) as (d & X & M); auto.
  exists d. split; [|exact M]. intros d'. split; [intros Y; exact (expands_det _ _ _ _ _ Y X)|intros ->; exact X].
Qed.
Print Assumptions C105_guard.

(** and it means nothing else: no expansion has two meanings.  (Meanings are functions, so this uses functional extensionality.) *)
Theorem C105_one_meaning :
  forall (value state loc dyn answer : Type)
    (user user_seq user_body : datum -> env loc -> computation value state dyn answer) (call : value -> list value -> computation value state dyn answer)
    (alloc : state -> value -> loc * state) (truth : value -> bool) (raise_continuable : value -> computation value state dyn answer) (wrong : state -> answer)
    (push : dyn -> (value -> computation value state dyn answer) -> dyn) (reroot : dyn -> dyn -> (state -> answer) -> state -> answer)
    (u : nat) (keyword : datum) (x : nat) (cs : list clause) (body : list datum) t r d c,
  Nat.even x = true -> cs <> [] -> clauses_ok cs -> body <> [] -> plain (dlist body) = true ->
  expands guard_text u (guard_form keyword x cs body) d ->
  (means value state loc dyn answer user user_seq user_body call alloc truth raise_continuable wrong push reroot (S u) t r d c <->
   c = guard_means value state loc dyn answer user user_seq user_body call alloc truth raise_continuable wrong push reroot x cs (dlist body) r).
Proof.
  intros. destruct (guard_ok user user_seq user_body call alloc truth raise_continuable wrong push reroot u keyword x cs body) as (d' & X & M); auto.
  assert (d' = d) as -> by (eapply expands_det; eassumption). split; [|intros ->; apply M]. intros M'. eapply means_det; [exact M'|apply M].
Qed.
Print Assumptions C105_one_meaning.

(** ** Example *)
(** Values are numbers, 0 is false.  The state is the store and a log of the dynamic environments left and entered, numbered by depth.
    Expressions: numbers, variables, #(e), which is (raise-continuable e), and (() e1 e2), the sum of e1 and e2 *)
Inductive answer_ := Answer (vs : list nat) (log : list (nat * nat)) | Uncaught (v : nat) | Stuck.
Definition st : Type := list nat * list (nat * nat).
Definition k_ : Type := list nat -> st -> answer_.
(** depth and handler *)
Definition dyn_ : Type := nat * option (nat -> k_ -> st -> answer_).
Definition comp := computation nat st dyn_ answer_.
Definition push_ (d : dyn_) (h : nat -> comp) : dyn_ := (S (fst d), Some (fun v k s => h v d k s)).
Definition reroot_ (d d' : dyn_) (k : st -> answer_) (s : st) : answer_ := k (fst s, snd s ++ [(fst d, fst d')]).
Definition raise_ (v : nat) : comp := fun d k s => match snd d with Some h => h v k s | None => Uncaught v end.
Definition alloc_ (s : st) (v : nat) : nat * st := (length (fst s), (fst s ++ [v], snd s)).
Fixpoint user_ (e : datum) (r : env nat) : comp := fun d k s =>
  match e with
  | Int n => k [n] s
  | Id x => match r x with Some l => match nth_error (fst s) l with Some v => k [v] s | None => Stuck end | None => Stuck end
  | Vec (Pair e Nil) => user_ e r d (fun vs s => match vs with [v] => raise_ v d k s | _ => Stuck end) s
  | Pair Nil (Pair e1 (Pair e2 Nil)) =>
      user_ e1 r d (fun vs s => match vs with [v] => user_ e2 r d (fun ws s => match ws with [w] => k [v + w] s | _ => Stuck end) s | _ => Stuck end) s
  | _ => Stuck
  end.
Definition seq_ (es : datum) (r : env nat) : comp := match es with Pair e Nil => user_ e r | _ => fun _ _ _ => Stuck end.
Definition call_ (f : nat) (vs : list nat) : comp := fun d k s => k (f :: vs) s.
Notation means_ := (means nat st nat dyn_ answer_ user_ seq_ seq_ call_ alloc_ (fun v => negb (v =? 0)) raise_ (fun _ => Stuck) push_ reroot_).
Definition run (c : comp) (d : dyn_) : answer_ := c d (fun vs s => Answer vs (snd s)) ([], []).
Definition outside : dyn_ := (0, None).
(** a handler that returns the object plus 100 *)
Definition caught : dyn_ := (0, Some (fun v k s => k [v + 100] s)).
Notation "<| x ; .. ; y |>" := (Pair x .. (Pair y Nil) ..).
Definition body_ : list datum := [ <| Nil; Int 1; Vec <| Int 7 |> |> ].
(** (guard (x (0 1) (x (+ x 1))) (+ 1 (raise-continuable 7))): 8, from the extent of the body (depth 1) back to the guard expression *)
Example C105_ex_caught : exists d c, expands guard_text 3 (guard_form Nil 1000 [Body (Int 0) [Int 1]; Body (Id 1000) [ <| Nil; Id 1000; Int 1 |> ]] body_) d /\
  means_ 4 (fun _ => None) (fun _ => None) d c /\ run c outside = Answer [8] [(0, 1); (0, 0)].
Proof.
  destruct (C105_guard nat st nat dyn_ answer_ user_ seq_ seq_ call_ alloc_ (fun v => negb (v =? 0)) raise_ (fun _ => Stuck) push_ reroot_ 3 Nil 1000
    [Body (Int 0) [Int 1]; Body (Id 1000) [ <| Nil; Id 1000; Int 1 |> ]] body_) as (d & X & M); try discriminate; try reflexivity.
  { repeat split; discriminate. }
  exists d. eexists. split; [now apply X|]. split; [apply M|]. vm_compute. reflexivity.
Qed.
(** (guard (x (0 1)) (+ 1 (raise-continuable 7))): no clause applies; the object reaches the handler outside, which returns 107 to the body *)
Example C105_ex_reraised : exists d c, expands guard_text 3 (guard_form Nil 1000 [Body (Int 0) [Int 1]] body_) d /\
  means_ 4 (fun _ => None) (fun _ => None) d c /\ run c outside = Uncaught 7 /\ run c caught = Answer [108] [(0, 1); (0, 0); (0, 0); (1, 0)].
Proof.
  destruct (C105_guard nat st nat dyn_ answer_ user_ seq_ seq_ call_ alloc_ (fun v => negb (v =? 0)) raise_ (fun _ => Stuck) push_ reroot_ 3 Nil 1000
    [Body (Int 0) [Int 1]] body_) as (d & X & M); try discriminate; try reflexivity.
  { repeat split; discriminate. }
  exists d. eexists. split; [now apply X|]. split; [apply M|]. vm_compute. split; reflexivity.
Qed.
(** else, =>, and a body that returns *)
Example C105_ex_clauses : forall r,
  let run_clauses cs := run (guard_means nat st nat dyn_ answer_ user_ seq_ seq_ call_ alloc_ (fun v => negb (v =? 0)) raise_ (fun _ => Stuck) push_ reroot_ 1000 cs (dlist body_) r) outside in
  run_clauses [Test (Int 0); Arrow (Id 1000) (Int 5); Else [Int 1]] = Answer [5; 7] [(0, 1); (0, 0)] /\
  run_clauses [Test (Int 0); Else [Int 1]] = Answer [1] [(0, 1); (0, 0)] /\
  run (guard_means nat st nat dyn_ answer_ user_ seq_ seq_ call_ alloc_ (fun v => negb (v =? 0)) raise_ (fun _ => Stuck) push_ reroot_ 1000 [Else [Int 1]] <| Int 9 |> r) outside = Answer [9] [(0, 1); (1, 0)].
Proof. intros r. vm_compute. repeat split; reflexivity. Qed.
