(** Property theorems about the derived forms of library/r4rs.ss and library/r7rs.ss: C63, C64, C65. *)
From Coq Require Import List Bool Arith Lia.
From Verif Require Import DerivedForms DerivedSpec DerivedProofs.
Import ListNotations.

(** Any values, states and locations, and any meaning of the expressions of the user; see DerivedSpec.v *)
Record world := World {
  value : Type; state : Type; loc : Type;
  truth : value -> bool; v_true : value; v_false : value; v_unspecified : value;
  user : form -> env loc -> state -> value -> state -> Prop;
  user_body : form -> env loc -> state -> value -> state -> Prop;
  apply : value -> list value -> state -> value -> state -> Prop;
  eqv : value -> value -> bool;
  datum : form -> value;
  alloc : state -> value -> loc * state;
  assign : state -> loc -> value -> state;
  content : state -> loc -> option value;
  closure : form -> form -> env loc -> state -> value * state;
  undefined : value;
  (** #f is the only false value *)
  true_true : truth v_true = true;
  only_false : forall v, truth v = false <-> v = v_false }.
Arguments truth {w}. Arguments v_true {w}. Arguments v_false {w}. Arguments v_unspecified {w}. Arguments user {w}. Arguments user_body {w}.
Arguments apply {w}. Arguments eqv {w}. Arguments datum {w}. Arguments alloc {w}. Arguments assign {w}. Arguments content {w}. Arguments closure {w}. Arguments undefined {w}.
(** the expansion f, in the environment r and the state s, has the value v and leaves the state s' *)
Definition computes (W : world) (same : name -> form -> bool) (f : form) (r : env (loc W)) (s : state W) (v : value W) (s' : state W) : Prop :=
  ev (value W) (state W) (loc W) truth v_true v_false v_unspecified user user_body apply eqv datum alloc assign content closure undefined same (fun _ => None) r f s v s'.

(** ** C63: quasiquotation *)
(** The expansion of a quasiquotation evaluates to the structure that R7RS 4.2.8 prescribes for its template, at any
    nesting of lists, vectors and inner quasiquotations, and to nothing else.  [spelled], [distinct]: the three
    keywords have their own names.  [self]: constants evaluate to themselves. *)
Theorem C63_quasiquote : forall same symbol user head template y,
  (forall k a, k = n_unquote \/ k = n_unquote_splicing \/ k = n_quasiquote -> (same k a = true <-> a = Id (symbol k))) ->
  symbol n_unquote <> symbol n_unquote_splicing /\ symbol n_unquote <> symbol n_quasiquote /\ symbol n_unquote_splicing <> symbol n_quasiquote ->
  (forall c, user (Const c) = Const c) ->
  quasi same user 0 template y -> forall z, builds user (quasiquote_ same symbol (flist [head; template])) z <-> z = y.
Proof. intros same symbol u head template y SP D SE Q z. exact (proj1 (quasi_builds same symbol u SP D SE) 0 template y Q z). Qed.
Print Assumptions C63_quasiquote.

(** ** C64: conditionals *)
(** cond: the tests in order until one is true, then what its clause says *)
Theorem C64_cond : forall W same els arr head cs r s v s', same n_else els = true -> same n_arrow arr = true -> clauses_ok same cs ->
  (computes W same (cond_ same (Pair head (flist (List.map (clause_form els arr) cs)))) r s v s' <->
   cond_means (value W) (state W) (loc W) truth v_unspecified user apply cs r s v s').
Proof.
  intros W same els arr head cs r s v s' E A OK.
  change (cond_ same (Pair head (flist (List.map (clause_form els arr) cs)))) with (cond_ same (Pair (Ren n_cond) (flist (List.map (clause_form els arr) cs)))).
  unfold computes.
  eapply iff_trans; [symmetry; apply macro_iff; reflexivity|]. apply cond_iff; auto using true_true, only_false.
Qed.
Print Assumptions C64_cond.
(** case: the key once, then the first clause with an equivalent datum *)
Theorem C64_case : forall W same els arr head e cs r s v s', same n_else els = true -> same n_arrow arr = true -> plain e = true -> cases_ok same cs ->
  (computes W same (case_ same (Pair head (Pair e (flist (List.map (case_form els arr) cs))))) r s v s' <->
   case_means (value W) (state W) (loc W) v_unspecified user apply eqv datum e cs r s v s').
Proof. intros W same els arr head e cs r s v s' E A P OK. apply case_iff; try assumption; [apply true_true|apply only_false]. Qed.
Print Assumptions C64_case.
(** and, or: from left to right, until the value is known *)
Theorem C64_and : forall W same head es r s v s', forallb plain es = true ->
  (computes W same (and_ (Pair head (flist es))) r s v s' <-> and_means (value W) (state W) (loc W) truth v_true user es r s v s').
Proof.
  intros W same head es r s v s' P. change (and_ (Pair head (flist es))) with (and_ (Pair (Ren n_and) (flist es))). unfold computes.
  eapply iff_trans; [symmetry; apply macro_iff; reflexivity|]. apply and_iff; auto using true_true, only_false.
Qed.
Print Assumptions C64_and.
Theorem C64_or : forall W same head es r s v s', forallb plain es = true ->
  (computes W same (or_ (Pair head (flist es))) r s v s' <-> or_means (value W) (state W) (loc W) truth v_false user es r s v s').
Proof.
  intros W same head es r s v s' P. change (or_ (Pair head (flist es))) with (or_ (Pair (Ren n_or) (flist es))). unfold computes.
  eapply iff_trans; [symmetry; apply macro_iff; reflexivity|]. apply or_iff; auto using true_true, only_false.
Qed.
Print Assumptions C64_or.
(** when, unless *)
Theorem C64_when : forall W same head e es r s v s', plain e = true -> forallb plain es = true ->
  (computes W same (when_ (Pair head (Pair e (flist es)))) r s v s' <-> when_means (value W) (state W) (loc W) truth v_unspecified user true e es r s v s') /\
  (computes W same (unless_ (Pair head (Pair e (flist es)))) r s v s' <-> when_means (value W) (state W) (loc W) truth v_unspecified user false e es r s v s').
Proof. intros W same head e es r s v s' P Q. split; [apply when_iff|apply unless_iff]; auto using true_true, only_false. Qed.
Print Assumptions C64_when.

(** ** C65: binding and iteration *)
(** let binds after it has evaluated, let* one after the other *)
Theorem C65_let : forall W same head bs body r s v s', forallb plain (List.map snd bs) = true -> plain body = true ->
  (computes W same (let_ (Pair head (Pair (flist (List.map binding_form bs)) body))) r s v s' <->
   let_means (value W) (state W) (loc W) user user_body alloc bs body r s v s').
Proof. intros. apply let_iff; auto using true_true, only_false. Qed.
Print Assumptions C65_let.
Theorem C65_let_star : forall W same head bs body r s v s', forallb plain (List.map snd bs) = true -> plain body = true ->
  (computes W same (let_star (Pair head (Pair (flist (List.map binding_form bs)) body))) r s v s' <->
   let_star_means (value W) (state W) (loc W) user user_body alloc bs body r s v s').
Proof.
  intros W same head bs body r s v s' P Q.
  change (let_star (Pair head (Pair (flist (List.map binding_form bs)) body))) with (let_star (Pair (Ren n_let_star) (Pair (flist (List.map binding_form bs)) body))). unfold computes.
  eapply iff_trans; [symmetry; apply macro_iff; reflexivity|]. apply let_star_iff; auto using true_true, only_false.
Qed.
Print Assumptions C65_let_star.
(** do: fresh variables in every round *)
Theorem C65_do : forall W same head bs test result commands r s v s', forallb plain (List.map init bs) = true -> forallb plain (List.map next_of bs) = true ->
  plain test = true -> forallb plain result = true -> forallb plain commands = true ->
  (computes W same (do_ (Pair head (Pair (flist (List.map do_form bs)) (Pair (Pair test (flist result)) (flist commands))))) r s v s' <->
   do_means (value W) (state W) (loc W) truth user alloc bs test result commands r s v s').
Proof. intros. apply do_iff; auto using true_true, only_false. Qed.
Print Assumptions C65_do.
(** named let: the full statement has no hypotheses about the inits.  Here they do not depend on what the name is bound
    to, and do not change it. *)
Theorem C65_named_let_partial : forall W same head f bs body r s v s', forallb plain (List.map snd bs) = true ->
  (forall l st vs st', users (value W) (state W) (loc W) user (List.map snd bs) (extend (loc W) r f l) st vs st' <->
                       users (value W) (state W) (loc W) user (List.map snd bs) r st vs st') ->
  (forall s l s1 s2 w vs s3, alloc s undefined = (l, s1) -> users (value W) (state W) (loc W) user (List.map snd bs) r (assign s2 l w) vs s3 -> content s3 l = Some w) ->
  (computes W same (let_ (Pair head (Pair (Id f) (Pair (flist (List.map binding_form bs)) body)))) r s v s' <->
   named_let_means (value W) (state W) (loc W) user apply alloc assign closure undefined f bs body r s v s').
Proof. intros W same head f bs body r s v s' P I K. apply named_let_iff; auto using true_true, only_false. Qed.
Print Assumptions C65_named_let_partial.

(** A small language: values are numbers, #f is 0, #t is 1; the state is the list of the locations and the list of what has
    been noted.  Expressions: constants, variables, (note e), (= e e), (+ e e), with the operators 100, 101 and 102; a call of
    a variable; 103 as an operator is the procedure that notes its argument. *)
Module Examples.
Definition st : Type := list nat * list nat.
Fixpoint eval (e : form) (r : env nat) (s : st) : option (nat * st) :=
  match e with
  | Const c => Some (c, s)
  | Id x => match r x with Some l => match nth_error (fst s) l with Some v => Some (v, s) | None => None end | None => if x =? 103 then Some (103, s) else None end
  | Pair (Id 100) (Pair a Nil) => match eval a r s with Some (v, s) => Some (v, (fst s, snd s ++ [v])) | None => None end
  | Pair (Id 101) (Pair a (Pair b Nil)) =>
    match eval a r s with Some (v, s) => match eval b r s with Some (w, s) => Some (if v =? w then 1 else 0, s) | None => None end | None => None end
  | Pair (Id 102) (Pair a (Pair b Nil)) =>
    match eval a r s with Some (v, s) => match eval b r s with Some (w, s) => Some (v + w, s) | None => None end | None => None end
  | _ => None
  end.
Definition last_of (b : form) : form := match b with Pair a Nil => a | _ => Nil end.
Definition W : world.
Proof.
  refine (World nat st nat (fun v => negb (v =? 0)) 1 0 2
    (fun e r s v s' => eval e r s = Some (v, s')) (fun b r s v s' => eval (last_of b) r s = Some (v, s'))
    (fun f vs s v s' => if f =? 103 then exists x, vs = [x] /\ v = x + 1 /\ s' = (fst s, snd s ++ [x]) else vs = [v] /\ s' = s)
    Nat.eqb (fun d => match d with Const c => c | _ => 0 end)
    (fun s v => (length (fst s), (fst s ++ [v], snd s))) (fun s l v => (firstn l (fst s) ++ v :: skipn (S l) (fst s), snd s)) (fun s l => nth_error (fst s) l)
    (fun _ _ _ s => (7, s)) 2 eq_refl _).
  intros v. destruct v; cbn; split; congruence.
Defined.
Definition same (k : name) (x : form) : bool :=
  match k, x with
  | n_else, Id 90 | n_arrow, Id 91 | n_unquote, Id 92 | n_unquote_splicing, Id 93 | n_quasiquote, Id 94 => true
  | _, _ => false
  end.
Definition symbol (k : name) : nat := match k with n_unquote => 92 | n_unquote_splicing => 93 | n_quasiquote => 94 | _ => 0 end.
Definition note e := flist [Id 100; e].
Definition none : env nat := fun _ => None.
(** `(1 ,x `(2 ,(3 ,y)) #(,@z 4)), where x is 5, y is (6) and z is (7 8) *)
Definition value_of (e : form) : form := match e with Id 1 => Const 5 | Id 2 => flist [Const 6] | Id 3 => flist [Const 7; Const 8] | _ => e end.
Definition template := flist [Const 1; flist [Id 92; Id 1]; flist [Id 94; flist [Const 2; flist [Id 92; flist [Const 3; flist [Id 92; Id 2]]]]]; Vec (flist [flist [Id 93; Id 3]; Const 4])].
Definition expected := flist [Const 1; Const 5; flist [Id 94; flist [Const 2; flist [Id 92; flist [Const 3; flist [Const 6]]]]]; Vec (flist [Const 7; Const 8; Const 4])].
Ltac inner := apply Q_pair; [reflexivity|reflexivity| |].
Example C63_ex : quasi same value_of 0 template expected /\ plain template = true.
Proof.
  split; [|reflexivity]. unfold template, expected. cbn [flist].
  inner; [apply Q_const|]. inner; [apply (Q_unquote same value_of (Id 92) (Id 1)); reflexivity|].
  inner.
  { apply (Q_quasiquote same value_of 0 (Id 94) _ (flist [Const 2; flist [Id 92; flist [Const 3; flist [Const 6]]]])); [reflexivity|]. cbn [flist].
    inner; [apply Q_const|]. inner; [|apply Q_nil].
    apply (Q_unquote_inner same value_of 0 (Id 92) _ (flist [Const 3; flist [Const 6]])); [reflexivity|]. cbn [flist].
    inner; [apply Q_const|]. inner; [|apply Q_nil]. apply (Q_unquote same value_of (Id 92) (Id 2)); reflexivity. }
  inner; [|apply Q_nil]. apply (Q_vector same value_of 0 [flist [Id 93; Id 3]; Const 4] [Const 7; Const 8; Const 4]).
  apply (QE_splice same value_of (Id 93) (Id 3) [Const 7; Const 8] [Const 4] [Const 4]); try reflexivity.
  apply QE_one; [reflexivity|reflexivity|apply Q_const|apply QE_nil].
Qed.
(** (cond ((note 0) 3) ((note 5) => 103) (else 4)) notes 0, 5 and, in the procedure, 5 *)
Definition cond_ex := [C_body (note (Const 0)) [Const 3]; C_arrow (note (Const 5)) (Id 103); C_else [Const 4]].
Example C64_ex_cond : clauses_ok same cond_ex /\
  cond_means (value W) (state W) (loc W) truth v_unspecified user apply cond_ex none ([], []) 6 ([], [0; 5; 5]) /\
  computes W same (cond_ same (Pair (Id 0) (flist (List.map (clause_form (Id 90) (Id 91)) cond_ex)))) none ([], []) 6 ([], [0; 5; 5]).
Proof.
  assert (OK : clauses_ok same cond_ex) by (repeat split; reflexivity).
  assert (M : cond_means (value W) (state W) (loc W) truth v_unspecified user apply cond_ex none ([], []) 6 ([], [0; 5; 5])).
  { eapply CM_next; [reflexivity|reflexivity|reflexivity|]. eapply CM_arrow; [reflexivity|reflexivity|reflexivity|]. cbn. exists 5. auto. }
  split; [exact OK|]. split; [exact M|]. apply C64_cond; try reflexivity; assumption.
Qed.
(** (case (note 3) ((1 2) 10) ((3) (note 11)) (else 12)) *)
Definition case_ex := [Case (Some [Const 1; Const 2]) (inl [Const 10]); Case (Some [Const 3]) (inl [note (Const 11)]); Case None (inl [Const 12])].
Example C64_ex_case : cases_ok same case_ex /\
  case_means (value W) (state W) (loc W) v_unspecified user apply eqv datum (note (Const 3)) case_ex none ([], []) 11 ([], [3; 11]).
Proof.
  split; [repeat split; reflexivity|]. exists 3, ([], [3]). split; [reflexivity|]. apply KC_next; [reflexivity|]. apply KC_match; [reflexivity|]. constructor. constructor. reflexivity.
Qed.
Example C64_ex_and : and_means (value W) (state W) (loc W) truth v_true user [note (Const 4); note (Const 0); note (Const 5)] none ([], []) 0 ([], [4; 0]) /\
  or_means (value W) (state W) (loc W) truth v_false user [note (Const 0); note (Const 4); note (Const 5)] none ([], []) 4 ([], [0; 4]).
Proof.
  split.
  - eapply AM_next; [reflexivity|reflexivity| |discriminate]. apply AM_stop; reflexivity.
  - eapply OM_next; [reflexivity|reflexivity| |discriminate]. apply OM_stop; reflexivity.
Qed.
(** (do ((i 0 (+ i 1)) (j 7)) ((= i 2) (note j)) (note i)) *)
Definition do_ex := [Var 1 (Const 0) (Some (flist [Id 102; Id 1; Const 1])); Var 2 (Const 7) None].
Example C65_ex_do : do_means (value W) (state W) (loc W) truth user alloc do_ex (flist [Id 101; Id 1; Const 2]) [note (Id 2)] [note (Id 1)] none ([], [])
  7 ([0; 7; 1; 7; 2; 7], [0; 1; 7]).
Proof.
  eexists [0; 7], _, _, _. split; [repeat econstructor|]. split; [reflexivity|].
  eapply DL_next; [reflexivity|reflexivity|repeat econstructor|repeat econstructor|reflexivity|].
  eapply DL_next; [reflexivity|reflexivity|repeat econstructor|repeat econstructor|reflexivity|].
  eapply DL_value; [reflexivity|reflexivity|discriminate|]. constructor. reflexivity.
Qed.
(** (let* ((x 3) (x (+ x 1))) x) is 4; (let ((x 5)) (let ((x 3) (y x)) y)) is 5 *)
Example C65_ex_let : let_star_means (value W) (state W) (loc W) user user_body alloc [(1, Const 3); (1, flist [Id 102; Id 1; Const 1])] (flist [Id 1]) none ([], []) 4 ([3; 4], []) /\
  let_means (value W) (state W) (loc W) user user_body alloc [(1, Const 3); (2, Id 1)] (flist [Id 2]) (extend nat none 1 0) ([5], []) 5 ([5; 3; 5], []).
Proof.
  split.
  - eapply LM_bind; [reflexivity|reflexivity|]. eapply LM_bind; [reflexivity|reflexivity|]. constructor. reflexivity.
  - eexists [3; 5], _, _, _. split; [repeat econstructor|]. split; [reflexivity|]. reflexivity.
Qed.
(** (let f ((x 5)) x) *)
Example C65_ex_named : named_let_means (value W) (state W) (loc W) user apply alloc assign closure undefined 1 [(2, Const 5)] (flist [Id 2]) none ([], []) 5 ([7], []).
Proof. eexists 0, _, 7, _, [5], _. split; [reflexivity|]. split; [reflexivity|]. split; [repeat econstructor|]. split; reflexivity. Qed.
End Examples.

(** Named let evaluates its inits in the scope of its name: where f is bound to 5, (let f ((x f)) x) should have the
    value 5, and it has the new procedure, here 7. *)
Theorem C65_named_let_refuted : exists (W : world) same f bs body r s v s' u s'', forallb plain (List.map snd bs) = true /\
  named_let_means (value W) (state W) (loc W) user apply alloc assign closure undefined f bs body r s v s' /\
  computes W same (let_ (Pair Nil (Pair (Id f) (Pair (flist (List.map binding_form bs)) body)))) r s u s'' /\
  ~ computes W same (let_ (Pair Nil (Pair (Id f) (Pair (flist (List.map binding_form bs)) body)))) r s v s'.
Proof.
  exists Examples.W, Examples.same, 1, [(2, Id 1)], (flist [Id 2]), (extend nat Examples.none 1 0), ([5], []), 5, ([5; 7], []), 7, ([5; 7], []).
  split; [reflexivity|]. split; [|split].
  - eexists 1, _, 7, _, [5], _. split; [reflexivity|]. split; [reflexivity|]. split; [repeat econstructor|]. split; reflexivity.
  - unfold computes. rewrite named_let_unfold. apply letrec_iff; [reflexivity|].
    eexists 1, _, 7, _, [7], _, 7. split; [reflexivity|]. split; [reflexivity|]. split; [repeat econstructor|]. split; [reflexivity|]. split; reflexivity.
  - unfold computes. rewrite named_let_unfold. rewrite letrec_iff by reflexivity. intros (l & s1 & w & s2 & vs & s3 & u & A & B & C & D & E).
    injection A as <- <-. injection B as <- <-. inversion C; subst. match goal with H : users _ _ _ _ [] _ _ _ _ |- _ => inversion H; subst end.
    match goal with H : user _ _ _ _ _ |- _ => cbn in H; injection H as <- <- end. cbn in D. injection D as <-. cbn in E. destruct E as [E _]. discriminate.
Qed.
Print Assumptions C65_named_let_refuted.
