(** * Properties of syntax-rules: C61, C62

    Parameters of the statements: [cmp], [underscore], [ellipsis], [lits] are compare, the
    identifier _, the ellipsis and the list of literals where the macro is defined; [rename] and
    [compare] are those of the use of the macro; [global] are the values of global variables. *)
From Coq Require Import List Arith Lia Bool.
From Verif Require Import SyntaxRules SyntaxRulesSpec SyntaxRulesProofs.
Import ListNotations.
Open Scope nat_scope.

(** ** C61: the first rule whose pattern matches is used, and its template is filled in *)
(** Missing from the full statement: literals before an ellipsis, (... ...) and _ in templates, several ellipses after
    something that is no identifier.  Each is refuted below. *)
Theorem C61_rules_partial :
  forall (cmp : datum -> datum -> bool) (underscore ellipsis lits : datum)
         (rename : datum -> datum) (compare : datum -> datum -> bool) (global : var -> datum)
         (fuel : nat) (rules : list (datum * datum)) (procedure : expr) (keyword args : datum),
  (forall e, cmp ellipsis e = true -> exists x, e = Id x) ->
  let literal x := existsb (cmp (Id x)) (elements lits) in
  let blank x := cmp (Id x) underscore in
  let fits x d := compare d (rename (Id x)) in
  Forall (careful_rule (cmp ellipsis) literal blank) rules ->
  transformer cmp underscore ellipsis lits fuel rules = Ok procedure ->
  match choose (cmp ellipsis) literal blank fits rules args with
  | Some (s, t) =>
      forall d, instance (cmp ellipsis) (fun x => rename (Id x)) true s t d ->
      exists n, forall m, n <= m -> expand rename compare global m procedure (Pair keyword args) = Ok d
  | None => exists n, forall m, n <= m -> expand rename compare global m procedure (Pair keyword args) = Bad
  end.
Proof.
  intros cmp underscore ellipsis lits rename compare global fuel rules procedure keyword args H literal blank fits C T.
  apply (transformer_correct cmp underscore ellipsis lits) with (fuel := fuel); auto.
  intros e E. destruct (H e E) as [x ->]. reflexivity.
Qed.
Print Assumptions C61_rules_partial.

(** ** C62: rules are accepted if and only if their ellipses are right *)
Theorem C62_accepted_partial :
  forall (cmp : datum -> datum -> bool) (underscore ellipsis lits : datum) (rules : list (datum * datum)),
  (forall e, cmp ellipsis e = true -> exists x, e = Id x) ->
  (forall e, cmp e ellipsis = cmp ellipsis e) ->
  let literal x := existsb (cmp (Id x)) (elements lits) in
  let blank x := cmp (Id x) underscore in
  Forall (careful_rule (cmp ellipsis) literal blank) rules ->
  (Forall (legal_rule (cmp ellipsis) literal blank) rules <-> exists n e, transformer cmp underscore ellipsis lits n rules = Ok e) /\
  (Forall (legal_rule (cmp ellipsis) literal blank) rules -> exists n, forall m, n <= m -> exists e, transformer cmp underscore ellipsis lits m rules = Ok e).
Proof.
  intros cmp underscore ellipsis lits rules H S literal blank C.
  apply (transformer_accepts cmp underscore ellipsis lits); auto.
  intros e E. destruct (H e E) as [x ->]. reflexivity.
Qed.
Print Assumptions C62_accepted_partial.

(** ** Examples *)
Module Examples.
  (** Identifiers: 0 is _, 1 is the ellipsis, 2 is the literal =>; renamed identifiers are 100 more *)
  Definition cmp (x y : datum) : bool := match x, y with Id a, Id b => a =? b | _, _ => false end.
  Definition rename (x : datum) : datum := match x with Id a => Id (100 + a) | _ => x end.
  Definition plain (x : datum) : datum := match x with Id a => Id (if 100 <=? a then a - 100 else a) | _ => x end.
  Definition compare (x y : datum) : bool := cmp (plain x) (plain y).
  Definition global (_ : var) : datum := Nil.
  Definition underscore := Id 0.
  Definition dots := Id 1.
  Definition arrow := Id 2.
  Notation "<| |>" := Nil.
  Notation "<| x ; .. ; y |>" := (Pair x .. (Pair y Nil) ..).
  Notation "<| x ; .. ; y ;; r |>" := (Pair x .. (Pair y r) ..).
  Definition lits := <| arrow |>.
  Definition run (rules : list (datum * datum)) (form : datum) : outcome datum :=
    do ' e <- transformer cmp underscore dots lits 60 rules; expand rename compare global 200 e form.
  Definition kw := Id 9.
  Definition a := Id 10. Definition b := Id 11. Definition c := Id 12. Definition z := Id 13.
  Definition lambda := Id 30. Definition begin := Id 31.
  Lemma ellipsis_identifier e : cmp dots e = true -> exists x, e = Id x.
  Proof. destruct e; try discriminate. eauto. Qed.
  Lemma symmetric e : cmp e dots = cmp dots e.
  Proof. destruct e as [x | | | | | |]; try reflexivity. apply Nat.eqb_sym. Qed.

  (** (let ((a b) ...) c ...) => ((lambda (a ...) c ...) b ...) *)
  Definition let_rule := (<| kw; <| <| a; b |>; dots |>; c; dots |>, <| <| lambda; <| a; dots |>; c; dots |>; b; dots |>).
  (** (kw a => b) => (begin b a) *)
  Definition arrow_rule := (<| kw; a; arrow; b |>, <| begin; b; a |>).
  (** (kw #(a ...) ... z) => ((a ... z) ...) *)
  Definition tail_rule := (<| kw; Vec <| a; dots |>; dots; z |>, <| <| z |>; a; dots; dots |>).
  Definition rules := [arrow_rule; let_rule; tail_rule].
  Example C61_ex_let : run rules <| kw; <| <| Id 40; Int 1 |>; <| Id 41; Int 2 |> |>; Id 42; Id 43 |> =
    Ok <| <| Id 130; <| Id 40; Id 41 |>; Id 42; Id 43 |>; Int 1; Int 2 |>.
  Proof. vm_compute. reflexivity. Qed.
  Example C61_ex_arrow : run rules <| kw; Int 1; arrow; Int 2 |> = Ok <| Id 131; Int 2; Int 1 |>.
  Proof. vm_compute. reflexivity. Qed.
  Example C61_ex_tail : run rules <| kw; Vec <| Int 1; Int 2 |>; Vec <| |>; Vec <| Int 3 |>; Int 4 |> = Ok <| <| Int 4 |>; Int 1; Int 2; Int 3 |>.
  Proof. vm_compute. reflexivity. Qed.
  Example C61_ex_none : run rules <| kw; Vec <| Int 1 |>;; Int 4 |> = Bad.
  Proof. vm_compute. reflexivity. Qed.
  Lemma careful_rules :
    Forall (careful_rule (cmp dots) (fun x => existsb (cmp (Id x)) (elements lits)) (fun x => cmp (Id x) underscore)) rules.
  Proof.
    assert (B : forall t, forallb (fun x => negb (x =? 0)) (identifiers t) = true -> forall x, In x (identifiers t) -> cmp (Id x) underscore = false).
    { intros t H x I. rewrite forallb_forall in H. apply H in I. cbn in *. destruct (x =? 0); [discriminate | reflexivity]. }
    repeat apply Forall_cons; [| | | apply Forall_nil];
      (eexists; eexists; split; [reflexivity |]; split; [reflexivity |]; split; [vm_compute; repeat (apply NoDup_cons; [cbn; intuition discriminate |]); apply NoDup_nil |]; split; [|apply B; vm_compute; reflexivity]).
    - repeat (apply P_id || apply P_nil || (apply P_pair; [reflexivity | reflexivity | |])).
    - apply P_pair; [reflexivity | reflexivity | |].
      + apply P_pair; [reflexivity | reflexivity | apply P_id |]. apply P_pair; [reflexivity | reflexivity | |].
        * apply P_ellipsis with (n := 0) (r := Nil); [reflexivity | | now left | apply P_id | apply P_nil]. exists dots, Nil. repeat split.
        * apply P_ellipsis with (n := 0) (r := Nil); [reflexivity | | now left | apply P_id | apply P_nil]. exists dots, Nil. repeat split.
      + apply P_ellipsis with (n := 0) (r := Nil); [reflexivity | | now left | apply P_id | apply P_nil]. exists dots, Nil. repeat split.
    - apply P_pair; [reflexivity | reflexivity | apply P_pair; [reflexivity | reflexivity | apply P_id | apply P_nil] |].
      apply P_ellipsis with (n := 1) (r := Nil); [reflexivity | | right; now exists 10 | apply P_id | apply P_nil].
      exists dots, <| dots |>. repeat split. exists dots, Nil. repeat split.
  Qed.
  (** The theorem about the second rule: what the let form becomes *)
  Example C61_ex : exists procedure, transformer cmp underscore dots lits 60 rules = Ok procedure /\
    exists n, forall m, n <= m -> expand rename compare global m procedure <| kw; <| <| Id 40; Int 1 |> |>; Id 42 |> =
      Ok <| <| Id 130; <| Id 40 |>; Id 42 |>; Int 1 |>.
  Proof.
    destruct (transformer cmp underscore dots lits 60 rules) as [procedure | | |] eqn:T; try (vm_compute in T; discriminate).
    exists procedure. split; [reflexivity |].
    pose proof (C61_rules_partial cmp underscore dots lits rename compare global 60 rules procedure kw <| <| <| Id 40; Int 1 |> |>; Id 42 |>
      ellipsis_identifier careful_rules T) as H.
    cbv zeta in H.
    match type of H with match ?c with _ => _ end => let v := eval vm_compute in c in change c with v in H end.
    apply H. clear H T.
    apply I_pair; [split; reflexivity | |].
    - apply I_pair; [split; reflexivity | apply (I_name (cmp dots) (fun x => rename (Id x))); reflexivity |]. apply I_pair; [split; reflexivity | |].
      + apply (I_ellipsis _ _ _ _ _ 0 Nil [Id 40] Nil); [reflexivity | exists dots, Nil; repeat split | | apply I_nil].
        apply (C_many _ _ _ _ 0 1 [[Id 40]]); [discriminate | intros x [<- | []]; eexists; split; reflexivity | reflexivity |].
        intros [|i] L; [|lia]. apply C_one. apply I_variable. reflexivity.
      + apply (I_ellipsis _ _ _ _ _ 0 Nil [Id 42] Nil); [reflexivity | exists dots, Nil; repeat split | | apply I_nil].
        apply (C_many _ _ _ _ 0 1 [[Id 42]]); [discriminate | intros x [<- | []]; eexists; split; reflexivity | reflexivity |].
        intros [|i] L; [|lia]. apply C_one. apply I_variable. reflexivity.
    - apply (I_ellipsis _ _ _ _ _ 0 Nil [Int 1] Nil); [reflexivity | exists dots, Nil; repeat split | | apply I_nil].
      apply (C_many _ _ _ _ 0 1 [[Int 1]]); [discriminate | intros x [<- | []]; eexists; split; reflexivity | reflexivity |].
      intros [|i] L; [|lia]. apply C_one. apply I_variable. reflexivity.
  Qed.
  (** Too few, too many ellipses in a template; two in a pattern *)
  Example C62_ex : run rules <| kw; Vec <| |>; Int 4 |> <> Bad /\
    run [(<| kw; a; dots |>, a)] <| kw |> = Bad /\ run [(<| kw; a |>, <| a; dots |>)] <| kw; Int 1 |> = Bad /\
    run [(<| kw; a; dots; b; dots |>, Nil)] <| kw |> = Bad.
  Proof. repeat split; vm_compute; congruence. Qed.
  Example C62_ex_legal : Forall (legal_rule (cmp dots) (fun x => existsb (cmp (Id x)) (elements lits)) (fun x => cmp (Id x) underscore)) rules.
  Proof. apply (C62_accepted_partial cmp underscore dots lits rules ellipsis_identifier symmetric careful_rules). exists 60. eexists. vm_compute. reflexivity. Qed.
  Example C62_ex_illegal : ~ exists n e, transformer cmp underscore dots lits n [(<| kw; a; dots |>, a)] = Ok e.
  Proof.
    intros H. apply (C62_accepted_partial cmp underscore dots lits _ ellipsis_identifier symmetric) in H.
    - inversion H as [|r rs [k [p [E [_ G]]]] _]. cbn in E. injection E as <- <-. inversion G as [dim x Hx | | | | | | |]. specialize (Hx 1 eq_refl). lia.
    - constructor; [|constructor]. exists kw, <| a; dots |>. split; [reflexivity |]. split; [reflexivity |]. split; [|split; [apply P_id |]].
      + repeat constructor; intros [].
      + intros x [<- | []]. reflexivity.
  Qed.
End Examples.

(** ** Where syntax-rules departs from R7RS *)
Import Examples.
Definition literal (x : nat) := existsb (cmp (Id x)) (elements lits).
Definition blank (x : nat) := cmp (Id x) underscore.
Definition fits (x : nat) (d : datum) := compare d (rename (Id x)).
(** A literal followed by an ellipsis, (kw => ...), matches anything: (kw 5) has no expansion but is expanded *)
Theorem C61_literal_refuted :
  let rules := [(<| kw; arrow; dots |>, begin)] in let args := <| Int 5 |> in
  choose (cmp dots) literal blank fits rules args = None /\ run rules (Pair kw args) = Ok (Id 131).
Proof. split; vm_compute; reflexivity. Qed.
(** (... a) in a template: a is not filled in *)
Theorem C61_escape_refuted :
  let rules := [(<| kw; a |>, <| dots; a |>)] in let args := <| Int 5 |> in
  exists s t, choose (cmp dots) literal blank fits rules args = Some (s, t) /\
  instance (cmp dots) (fun x => rename (Id x)) true s t (Int 5) /\ run rules (Pair kw args) = Ok a.
Proof.
  eexists. eexists. split; [reflexivity |]. split; [|vm_compute; reflexivity]. apply I_escape; [reflexivity |]. apply I_variable. reflexivity.
Qed.
(** ((a b) ... ...) in a template: the copies are wrong *)
Theorem C61_ellipses_refuted :
  let rules := [(<| kw; <| <| a; b |>; dots |>; dots |>, <| <| a; b |>; dots; dots |>)] in
  let args := <| <| <| Int 1; Int 2 |>; <| Int 3; Int 4 |> |> |> in
  exists s t, choose (cmp dots) literal blank fits rules args = Some (s, t) /\
  instance (cmp dots) (fun x => rename (Id x)) true s t <| <| Int 1; Int 2 |>; <| Int 3; Int 4 |> |> /\
  run rules (Pair kw args) = Ok <| <| Int 1; Int 3 |>; <| Int 2; Int 4 |> |>.
Proof.
  eexists. eexists. split; [reflexivity |]. split; [|vm_compute; reflexivity].
  apply (I_ellipsis _ _ _ _ _ 1 Nil [<| Int 1; Int 2 |>; <| Int 3; Int 4 |>] Nil); [reflexivity | | | apply I_nil].
  - exists dots, <| dots |>. repeat split. exists dots, Nil. repeat split.
  - apply (C_many _ _ _ _ 1 1 [[<| Int 1; Int 2 |>; <| Int 3; Int 4 |>]]); [discriminate | | reflexivity |].
    + intros x [<- | [<- | []]]; eexists; split; reflexivity.
    + intros [|i] L; [|lia]. apply (C_many _ _ _ _ 0 2 [[<| Int 1; Int 2 |>]; [<| Int 3; Int 4 |>]]); [discriminate | | reflexivity |].
      * intros x [<- | [<- | []]]; eexists; split; reflexivity.
      * intros [|[|i]] L'; [| | lia]; apply C_one;
          (apply I_pair; [split; reflexivity | apply I_variable; reflexivity |]; apply I_pair; [split; reflexivity | apply I_variable; reflexivity | apply I_nil]).
Qed.
(** _ in a template, when the pattern has _ under an ellipsis: a list is put in, which is not what _ stands for *)
Theorem C61_blank_refuted :
  let rules := [(<| kw; <| underscore; a |>; dots |>, <| <| underscore; a |>; dots |>)] in
  let args := <| <| Int 1; Int 2 |> |> in
  exists s t, choose (cmp dots) literal blank fits rules args = Some (s, t) /\
  instance (cmp dots) (fun x => rename (Id x)) true s t <| <| Id 100; Int 2 |> |> /\
  run rules (Pair kw args) = Ok <| <| Nil; Int 2 |> |>.
Proof.
  eexists. eexists. split; [reflexivity |]. split; [|vm_compute; reflexivity].
  apply (I_ellipsis _ _ _ _ _ 0 Nil [<| Id 100; Int 2 |>] Nil); [reflexivity | exists dots, Nil; repeat split | | apply I_nil].
  apply (C_many _ _ _ _ 0 1 [[<| Id 100; Int 2 |>]]); [discriminate | | reflexivity |].
  - intros x [<- | []]; eexists; split; reflexivity.
  - intros [|i] L; [|lia]. apply C_one.
    apply I_pair; [split; reflexivity | apply (I_name (cmp dots) (fun x => rename (Id x))); reflexivity |]. apply I_pair; [split; reflexivity | apply I_variable; reflexivity | apply I_nil].
Qed.
