(** * C102: let-values, let*-values, receive and rec *)
From Coq Require Import String List Bool Arith Lia.
From Verif Require Import SyntaxRules Macros MacrosProofs MacrosEval.
From Verif Require Import MacrosSpec.
Import ListNotations.
Local Open Scope nat_scope.

(** A use of a macro has one expansion.  For any meaning of the expressions inside ([user], [user_body]), any
    way to make locations, lists and procedures, and any number u of the use, the expansion of (let-values (clause ...) body0 body1 ...)
    computes what R7RS says: the inits in the environment of the let-values expression, the variables in new locations holding the values,
    then the body. *)
Theorem C102_let_values :
  forall (value state loc : Type) (user user_body : datum -> env loc -> state -> list value -> state -> Prop)
         (alloc : state -> value -> loc * state) (list_of : state -> list value -> value * state) (assign : state -> loc -> value -> state)
         (undefined : value) (closure : datum -> datum -> env loc -> state -> value * state)
         (u : nat) (keyword : datum) (bs : list (formals * datum)) (b0 : datum) (b1 : list datum),
  Forall clause_ok bs -> plain b0 = true -> plain (dlist b1) = true ->
  exists d, (forall d', expands let_values_text u (Pair keyword (Pair (dlist (map clause bs)) (Pair b0 (dlist b1)))) d' <-> d' = d) /\
    forall t r s ws s',
      ev value state loc user user_body alloc list_of assign undefined closure (S u) t r d s ws s' <->
      let_values_means value state loc user user_body alloc list_of bs (Pair b0 (dlist b1)) r s ws s'.
Proof.
  intros. destruct (let_values_ok user user_body alloc list_of assign undefined closure u keyword bs b0 b1) as (d & X & D); auto.
  exists d. split; [|exact D]. intros d'. split; [intros Y; exact (expands_det _ _ _ _ _ Y X)|intros ->; exact X].
Qed.
Print Assumptions C102_let_values.
(** let*-values: every init in the environment of the clauses before it *)
Theorem C102_let_star_values :
  forall (value state loc : Type) (user user_body : datum -> env loc -> state -> list value -> state -> Prop)
         (alloc : state -> value -> loc * state) (list_of : state -> list value -> value * state) (assign : state -> loc -> value -> state)
         (undefined : value) (closure : datum -> datum -> env loc -> state -> value * state)
         (u : nat) (keyword : datum) (bs : list (formals * datum)) (b0 : datum) (b1 : list datum),
  Forall clause_ok bs -> plain b0 = true -> plain (dlist b1) = true ->
  exists d, (forall d', expands let_star_values_text u (Pair keyword (Pair (dlist (map clause bs)) (Pair b0 (dlist b1)))) d' <-> d' = d) /\
    forall t r s ws s',
      ev value state loc user user_body alloc list_of assign undefined closure (S u) t r d s ws s' <->
      let_star_values_means value state loc user user_body alloc list_of bs (Pair b0 (dlist b1)) r s ws s'.
Proof.
  intros. destruct (let_star_values_ok user user_body alloc list_of assign undefined closure b0 b1 ltac:(auto) ltac:(auto) bs u keyword) as (d & X & D); auto.
  exists d. split; [|exact D]. intros d'. split; [intros Y; exact (expands_det _ _ _ _ _ Y X)|intros ->; exact X].
Qed.
Print Assumptions C102_let_star_values.
(** (receive formals expression body ...), SRFI 8 *)
Theorem C102_receive :
  forall (value state loc : Type) (user user_body : datum -> env loc -> state -> list value -> state -> Prop)
         (alloc : state -> value -> loc * state) (list_of : state -> list value -> value * state) (assign : state -> loc -> value -> state)
         (undefined : value) (closure : datum -> datum -> env loc -> state -> value * state)
         (u : nat) (keyword : datum) (f : formals) (e : datum) (body : list datum),
  formals_ok f -> plain e = true -> plain (dlist body) = true ->
  exists d, (forall d', expands receive_text u (Pair keyword (Pair (form_of f) (Pair e (dlist body)))) d' <-> d' = d) /\
    forall t r s ws s',
      ev value state loc user user_body alloc list_of assign undefined closure (S u) t r d s ws s' <->
      receive_means value state loc user user_body alloc list_of f e (dlist body) r s ws s'.
Proof.
  intros. destruct (receive_ok user user_body alloc list_of assign undefined closure u keyword f e body) as (d & X & D); auto.
  exists d. split; [|exact D]. intros d'. split; [intros Y; exact (expands_det _ _ _ _ _ Y X)|intros ->; exact X].
Qed.
Print Assumptions C102_receive.
(** (rec (name . variables) . body) and (rec name expression), SRFI 31, when a variable has the value that it was assigned last *)
Theorem C102_rec :
  forall (value state loc : Type) (user user_body : datum -> env loc -> state -> list value -> state -> Prop)
         (alloc : state -> value -> loc * state) (list_of : state -> list value -> value * state) (assign : state -> loc -> value -> state)
         (undefined : value) (closure : datum -> datum -> env loc -> state -> value * state) (u : nat) (keyword : datum) (x : nat),
  (forall x r l s v vs s', r x = Some l -> (user (Id x) r (assign s l v) vs s' <-> vs = [v] /\ s' = assign s l v)) ->
  Nat.even x = true ->
  (forall fs body, plain fs = true -> plain body = true ->
   exists d, (forall d', expands rec_text u (Pair keyword (Pair (Pair (Id x) fs) body)) d' <-> d' = d) /\
     forall t r s ws s',
       ev value state loc user user_body alloc list_of assign undefined closure (S u) t r d s ws s' <->
       rec_means value state loc alloc assign undefined x (fun r s v s' => closure fs body r s = (v, s')) r s ws s') /\
  (forall e, plain e = true ->
   exists d, (forall d', expands rec_text u (Pair keyword (dlist [Id x; e])) d' <-> d' = d) /\
     forall t r s ws s',
       ev value state loc user user_body alloc list_of assign undefined closure (S u) t r d s ws s' <->
       rec_means value state loc alloc assign undefined x (fun r s v s' => user e r s [v] s') r s ws s').
Proof.
  intros value state loc user user_body alloc list_of assign undefined closure u keyword x Reads X. split.
  - intros fs body Pf Pb. destruct (rec_procedure_ok user user_body alloc list_of assign undefined closure Reads u keyword x fs body X Pf Pb) as (d & E & D).
    exists d. split; [|exact D]. intros d'. split; [intros Y; exact (expands_det _ _ _ _ _ Y E)|intros ->; exact E].
  - intros e Pe. destruct (rec_expression_ok user user_body alloc list_of assign undefined closure Reads u keyword x e X Pe) as (d & E & D).
    exists d. split; [|exact D]. intros d'. split; [intros Y; exact (expands_det _ _ _ _ _ Y E)|intros ->; exact E].
Qed.
Print Assumptions C102_rec.

(** Examples: values are numbers, lists and procedures; expressions are numbers, variables and (values e ...), written (() e ...) *)
Inductive val := N (n : nat) | L (l : list val) | Proc (fs body : datum).
Definition store : Type := nat * (nat -> val).
Definition var k := 1000 + 2 * k.
Definition compute (e : datum) (r : env nat) (s : store) : option val :=
  match e with
  | Int n => Some (N n)
  | Id x => option_map (snd s) (r x)
  | _ => None
  end.
Fixpoint several (e : datum) (r : env nat) (s : store) : option (list val) :=
  match e with
  | Nil => Some []
  | Pair e es => match compute e r s, several es r s with Some v, Some vs => Some (v :: vs) | _, _ => None end
  | _ => None
  end.
Definition answers (e : datum) (r : env nat) (s : store) (vs : list val) (s' : store) : Prop :=
  s' = s /\ match e with Pair _ es => several es r s = Some vs | _ => option_map (fun v => [v]) (compute e r s) = Some vs end.
Definition answers_body (b : datum) (r : env nat) (s : store) (vs : list val) (s' : store) : Prop :=
  match b with Pair e Nil => answers e r s vs s' | _ => False end.
Definition put (s : store) (l : nat) (v : val) : store := (fst s, fun k => if k =? l then v else snd s k).
Definition new (s : store) (v : val) : nat * store := (fst s, (S (fst s), snd (put s (fst s) v))).
Definition make_list (s : store) (vs : list val) : val * store := (L vs, s).
(** a = 1, b = 2 *)
Definition outer : env nat := fun x => if x =? var 0 then Some 0 else if x =? var 1 then Some 1 else None.
Definition before : store := (2, fun k => N (S k)).
Notation means := (ev val store nat answers answers_body new make_list put (N 0) (fun fs b r s => (Proc fs b, s))).
Definition swap : list (formals * datum) := [(Formals [var 0; var 1] None, dlist [Nil; Id (var 1); Id (var 0)]); (Formals [var 2] (Some (var 3)), dlist [Nil; Id (var 0); Int 8; Int 9])].
(** (let-values (((a b) (values b a)) ((c . d) (values a 8 9))) (values a b c d)) is 2 1 1 (8 9), and nothing else *)
Example C102_example_let_values : exists d,
  expands let_values_text 5 (Pair (Id (sym "let-values")) (Pair (dlist (map clause swap)) (Pair (dlist [Nil; Id (var 0); Id (var 1); Id (var 2); Id (var 3)]) (dlist [])))) d /\
  (exists s, means 6 (fun _ => None) outer d before [N 2; N 1; N 1; L [N 8; N 9]] s) /\
  forall vs s, means 6 (fun _ => None) outer d before vs s -> vs = [N 2; N 1; N 1; L [N 8; N 9]].
Proof.
  destruct (C102_let_values val store nat answers answers_body new make_list put (N 0) (fun fs b r s => (Proc fs b, s)) 5 (Id (sym "let-values"))
    swap (dlist [Nil; Id (var 0); Id (var 1); Id (var 2); Id (var 3)]) []) as (d & X & D); [repeat constructor..|].
  exists d. split; [now apply X|]. split.
  - eexists. apply D. exists [(var 0, N 2); (var 1, N 1); (var 2, N 1); (var 3, L [N 8; N 9])], before. do 2 eexists. split; [|split; [reflexivity|split; reflexivity]].
    apply (IN_cons _ _ _ _ _ _ _ _ _ before [N 2; N 1] before [(var 0, N 2); (var 1, N 1)] before [(var 2, N 1); (var 3, L [N 8; N 9])]); [split; reflexivity|apply (T_all _ [var 0; var 1] [N 2; N 1]); reflexivity|].
    apply (IN_cons _ _ _ _ _ _ _ _ _ before [N 1; N 8; N 9] before [(var 2, N 1); (var 3, L [N 8; N 9])] before []); [split; reflexivity| |constructor].
    apply (T_rest _ [var 2] (var 3) [N 1] [N 8; N 9]); reflexivity.
  - intros ws s H. apply D in H as (cs & s1 & r' & s2 & I & B & Q).
    inversion I as [|? ? ? ? ? vs s3 cs1 s4 cs2 s5 [-> E] T I2]; subst. injection E as <-. inversion T as [? ? ? Len|]; subst.
    inversion I2 as [|? ? ? ? ? vs s3 cs1 s6 cs3 s7 [-> E] T2 I3]; subst. injection E as <-. inversion T2 as [|? ? [|v1 [|v2 vs2]] ws' ? w ? Len2 E2]; subst; try discriminate. injection E2 as <- <-.
    inversion I3; subst. injection B as <- <-. destruct Q as [_ Q]. cbn in Q. injection Q as <-. reflexivity.
Qed.
(** (let*-values (((a b) (values b a)) ((c . d) (values a 8 9))) (values c d)) is 2 (8 9): the a of the second clause is the new one *)
Example C102_example_let_star_values : exists d,
  expands let_star_values_text 5 (Pair (Id (sym "let*-values")) (Pair (dlist (map clause swap)) (Pair (dlist [Nil; Id (var 2); Id (var 3)]) (dlist [])))) d /\
  exists s, means 6 (fun _ => None) outer d before [N 2; L [N 8; N 9]] s.
Proof.
  destruct (C102_let_star_values val store nat answers answers_body new make_list put (N 0) (fun fs b r s => (Proc fs b, s)) 5 (Id (sym "let*-values"))
    swap (dlist [Nil; Id (var 2); Id (var 3)]) []) as (d & X & D); [repeat constructor..|].
  exists d. split; [now apply X|]. eexists. apply D.
  eapply (LS_bind _ _ _ _ _ _ _ _ _ _ _ _ _ [N 2; N 1] _ [(var 0, N 2); (var 1, N 1)]); [split; reflexivity|apply (T_all _ [var 0; var 1] [N 2; N 1]); reflexivity|reflexivity|].
  eapply (LS_bind _ _ _ _ _ _ _ _ _ _ _ _ _ [N 2; N 8; N 9] _ [(var 2, N 2); (var 3, L [N 8; N 9])]); [split; reflexivity|apply (T_rest _ [var 2] (var 3) [N 2] [N 8; N 9]); reflexivity|reflexivity|].
  constructor. split; reflexivity.
Qed.
(** (receive (a . b) (values 1 2 3) b) is (2 3) *)
Example C102_example_receive : exists d,
  expands receive_text 0 (Pair Nil (Pair (form_of (Formals [var 0] (Some (var 1)))) (Pair (dlist [Nil; Int 1; Int 2; Int 3]) (dlist [Id (var 1)])))) d /\
  exists s, means 1 (fun _ => None) outer d before [L [N 2; N 3]] s.
Proof.
  destruct (C102_receive val store nat answers answers_body new make_list put (N 0) (fun fs b r s => (Proc fs b, s)) 0 Nil
    (Formals [var 0] (Some (var 1))) (dlist [Nil; Int 1; Int 2; Int 3]) [Id (var 1)]) as (d & X & D); [repeat constructor..|].
  exists d. split; [now apply X|]. eexists. apply D. exists [N 1; N 2; N 3], before, [(var 0, N 1); (var 1, L [N 2; N 3])], before. do 2 eexists. split; [split; reflexivity|].
  split; [apply (T_rest _ [var 0] (var 1) [N 1] [N 2; N 3]); reflexivity|]. split; [reflexivity|]. split; reflexivity.
Qed.
(** (rec (f x) f): a procedure, and location 2, the f of its environment, holds this procedure *)
Example C102_example_rec : exists d,
  expands rec_text 0 (Pair Nil (Pair (Pair (Id (var 7)) (dlist [Id (var 8)])) (dlist [Id (var 7)]))) d /\
  exists s, means 1 (fun _ => None) outer d before [Proc (dlist [Id (var 8)]) (dlist [Id (var 7)])] s /\ snd s 2 = Proc (dlist [Id (var 8)]) (dlist [Id (var 7)]).
Proof.
  assert (Reads : forall x (r : env nat) l s v vs s', r x = Some l -> (answers (Id x) r (put s l v) vs s' <-> vs = [v] /\ s' = put s l v)).
  { intros x r l s v vs s' E. unfold answers. cbn. rewrite E. cbn. rewrite Nat.eqb_refl. split; [intros [-> [= <-]]|intros [-> ->]]; auto. }
  destruct (C102_rec val store nat answers answers_body new make_list put (N 0) (fun fs b r s => (Proc fs b, s)) 0 Nil (var 7) Reads eq_refl) as [R _].
  destruct (R (dlist [Id (var 8)]) (dlist [Id (var 7)]) eq_refl eq_refl) as (d & X & D).
  exists d. split; [now apply X|]. eexists. split; [apply D; do 4 eexists; repeat split|reflexivity].
Qed.
