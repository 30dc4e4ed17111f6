(** * C104: define-values *)
From Coq Require Import String List Bool Arith Lia.
From Verif Require Import SyntaxRules Macros MacrosSpec MacrosProofs DefineValues DefineValuesProofs.
Import ListNotations.
Local Open Scope nat_scope.

(** Whatever the expression is and does, a define-values form with different variables has one expansion.  If the expression gives
    values for all variables, the expansion runs, and then each variable has its value, the rest variable a list of the others, the pairs there
    were are what the expression left, and so are the other variables of the program.  There are no other runs: none where the
    values are too few. *)
Theorem C104_define_values :
  forall (user : datum -> vars -> heap -> list value -> vars -> heap -> Prop) (u : nat) (keyword : datum) (f : formals) (e : datum),
  NoDup (parameters f) -> Forall (fun x => Nat.even x = true) (parameters f) -> plain e = true ->
  exists d, (forall d', expands define_values_text u (values_form keyword f e) d' <-> d' = d) /\
    (forall g h vs g1 h1, user e g h vs g1 h1 -> fitting f vs -> exists g' h', runs user g h d g' h' /\ values_defined f vs g1 h1 g' h') /\
    (forall g h g' h', runs user g h d g' h' -> exists vs ws g1 h1, user e g h vs g1 h1 /\ taken f vs ws /\ fitting f ws /\ values_defined f ws g1 h1 g' h').
Proof.
  intros user u kw f e N Ev P. destruct (define_values_ok user u kw f e N Ev P) as (d & X & R1 & R2). exists d.
  split; [intros d'; split; [intros Y; exact (expands_det _ _ _ _ _ Y X)|intros ->; exact X]|]. split.
  - intros g h vs g1 h1 U F. apply (R2 g h vs vs g1 h1 U); [|exact F]. destruct f as [xs [y|]]; [reflexivity|]. unfold taken, fitting in *. cbn [rest required] in *.
    destruct xs as [|x [|x1 xs]]; [destruct vs; [reflexivity|discriminate F]|reflexivity|]. exists []. symmetry. apply app_nil_r.
  - intros g h g' h' R. destruct (R1 _ _ _ _ R) as (vs & ws & g1 & h1 & U & T & D). exists vs, ws, g1, h1. split; [exact U|]. split; [exact T|]. split; [|exact D].
    destruct D as [B _]. exact (bound_length _ _ _ _ B).
Qed.
Print Assumptions C104_define_values.

(** R7RS calls too many values an error; with several variables, or none, they are dropped and the form runs. *)
Theorem C104_too_many :
  forall (user : datum -> vars -> heap -> list value -> vars -> heap -> Prop) (u : nat) (keyword : datum) (f : formals) (e d : datum),
  NoDup (parameters f) -> Forall (fun x => Nat.even x = true) (parameters f) -> plain e = true -> rest f = None -> length (required f) <> 1 ->
  expands define_values_text u (values_form keyword f e) d ->
  forall g h vs more g1 h1, user e g h (vs ++ more) g1 h1 -> length vs = length (required f) -> exists g' h', runs user g h d g' h' /\ values_defined f vs g1 h1 g' h'.
Proof.
  intros user u kw f e d N Ev P R L X g h vs more g1 h1 U Lv. destruct (define_values_ok user u kw f e N Ev P) as (d' & X' & _ & R2).
  rewrite (expands_det _ _ _ _ _ X X'). apply (R2 _ _ _ vs _ _ U).
  - destruct f as [xs o]. cbn in R. subst o. unfold taken. cbn in *. destruct xs as [|x [|x1 xs]]; [now destruct vs|now destruct L|]. eauto.
  - unfold fitting. rewrite R. lia.
Qed.
Print Assumptions C104_too_many.

(** (define-values (a b . c) e) where e makes a pair and gives 1 2 3 4: c is (3 4), the pair is still there *)
Definition four (e : datum) (g : vars) (h : heap) (vs : list value) (g' : vars) (h' : heap) : Prop :=
  vs = [Atom 1; Atom 2; Atom 3; Atom 4] /\ g' = g /\ h' = h ++ [(Atom 7, Empty)].
Example C104_example : exists d g' h' w,
  expands define_values_text 3 (values_form (Id (sym "define-values")) (Formals [1000; 1002] (Some 1004)) (Id (sym "e"))) d /\
  runs four (fun _ => None) [] d g' h' /\
  g' 1000 = Some (Atom 1) /\ g' 1002 = Some (Atom 2) /\ g' 1004 = Some w /\ listed h' w [Atom 3; Atom 4] /\ nth_error h' 0 = Some (Atom 7, Empty) /\ g' 1006 = None.
Proof.
  destruct (C104_define_values four 3 (Id (sym "define-values")) (Formals [1000; 1002] (Some 1004)) (Id (sym "e"))) as (d & X & R & _).
  { apply nodup_b_ok. vm_compute. reflexivity. } { repeat constructor. } { reflexivity. }
  destruct (R (fun _ => None) [] [Atom 1; Atom 2; Atom 3; Atom 4] (fun _ => None) [(Atom 7, Empty)]) as (g' & h' & Rg & B & K & O); [now repeat split|cbn; lia|].
  destruct B as (ws & us & E & F & w & W & L). cbn [required] in F. inversion F as [|? a ? ? A F1]; subst. inversion F1 as [|? b ? ? A1 F2]; subst. inversion F2; subst.
  cbn in E. injection E as <- <- <-. exists d, g', h', w. split; [now apply X|]. split; [exact Rg|]. split; [exact A|]. split; [exact A1|]. split; [exact W|]. split; [exact L|].
  split; [|apply O; [vm_compute; intuition discriminate|reflexivity]]. unfold kept in K. cbn in K. destruct h' as [|c h']; [discriminate K|]. cbn in K. injection K as ->. reflexivity.
Qed.
(** (define-values (a b c d x) e) does not run, (define-values (a b) e) does *)
Example C104_example_few : exists d,
  expands define_values_text 3 (values_form Nil (Formals [1000; 1002; 1004; 1006; 1008] None) (Id (sym "e"))) d /\ forall g' h', ~ runs four (fun _ => None) [] d g' h'.
Proof.
  destruct (C104_define_values four 3 Nil (Formals [1000; 1002; 1004; 1006; 1008] None) (Id (sym "e"))) as (d & X & _ & R).
  { apply nodup_b_ok. vm_compute. reflexivity. } { repeat constructor. } { reflexivity. }
  exists d. split; [now apply X|]. intros g' h' Rn. destruct (R _ _ _ _ Rn) as (vs & ws & g1 & h1 & (-> & _) & (us & E) & F & _).
  unfold fitting in F. cbn in F. assert (L := f_equal (@length value) E). rewrite app_length in L. cbn in L. lia.
Qed.
Example C104_example_many : exists d g' h',
  expands define_values_text 3 (values_form Nil (Formals [1000; 1002] None) (Id (sym "e"))) d /\ runs four (fun _ => None) [] d g' h' /\ g' 1000 = Some (Atom 1) /\ g' 1002 = Some (Atom 2).
Proof.
  destruct (C104_define_values four 3 Nil (Formals [1000; 1002] None) (Id (sym "e"))) as (d & X & _).
  { apply nodup_b_ok. vm_compute. reflexivity. } { repeat constructor. } { reflexivity. }
  destruct (C104_too_many four 3 Nil (Formals [1000; 1002] None) (Id (sym "e")) d) with (g := fun _ : nat => @None value) (h := @nil (value * value)) (vs := [Atom 1; Atom 2]) (more := [Atom 3; Atom 4])
    (g1 := fun _ : nat => @None value) (h1 := [(Atom 7, Empty)]) as (g' & h' & Rg & (ws & us & E & F & U) & _).
  { apply nodup_b_ok. vm_compute. reflexivity. } { repeat constructor. } { reflexivity. } { reflexivity. } { cbn. lia. } { now apply X. } { now repeat split. } { reflexivity. }
  cbn in U. subst us. rewrite app_nil_r in E. subst ws. cbn [required] in F. inversion F as [|? ? ? ? A F1]; subst. inversion F1; subst. exists d, g', h'. split; [now apply X|]. auto.
Qed.
