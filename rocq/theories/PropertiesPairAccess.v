(** Property theorems about the compositions of car and cdr, list and cons* (C125). *)
From Coq Require Import ZArith List Bool String Ascii Lia.
From Verif Require Import Lists PairAccess.
From Verif Require Machine LibraryCode Reach Symbolic ContinuationProofs TraceProgram ProgramText MapProofs PropertiesControl PropertiesMap.
Import ListNotations.

(** ** C125: accessors and constructors of pairs *)
(** The letters between the c and the r of a name *)
Fixpoint letters (s : string) : option (list bool) :=
  match s with
  | String "r" EmptyString => Some []
  | String "a" s => option_map (cons true) (letters s)
  | String "d" s => option_map (cons false) (letters s)
  | _ => None
  end.
Definition path (name : string) : option (list bool) := match name with String "c" s => letters s | _ => None end.
(** Where the letters lead from an object, the last letter first: a to the first field, d to the second *)
Inductive leads (h : heap) : list bool -> val -> val -> Prop :=
| L_here x : leads h [] x x
| L_a w p o x : leads h w x (Ptr p) -> nth_error h p = Some o -> leads h (true :: w) x (first o)
| L_d w p o x : leads h w x (Ptr p) -> nth_error h p = Some o -> leads h (false :: w) x (second o).
Fixpoint render (w : list bool) : string := match w with [] => "r" | true :: w => String "a" (render w) | false :: w => String "d" (render w) end.
Lemma letters_render s : forall w, letters s = Some w -> s = render w.
Proof.
  induction s as [|c s IH]; intros w H; [discriminate|]. cbn [letters] in H.
  assert (G : forall b, option_map (cons b) (letters s) = Some w -> String c s = String c (render (tl w)) /\ w = b :: tl w).
  { intros b Eq. destruct (letters s) as [v|]; [|discriminate]. injection Eq as <-. cbn [tl]. rewrite <- (IH v eq_refl). auto. }
  destruct c as [[] [] [] [] [] [] [] []]; try discriminate H;
    try (destruct (G true H) as [-> ->]; reflexivity); try (destruct (G false H) as [-> ->]; reflexivity).
  destruct s; [|discriminate H]. injection H as <-. reflexivity.
Qed.
Fixpoint follow (h : heap) (w : list bool) (x : val) : res val :=
  match w with [] => Done x | b :: w => y <- follow h w x; (if b then car h y else cdr h y) end.
Lemma follow_leads h w x : forall y, follow h w x = Done y <-> leads h w x y.
Proof.
  induction w as [|b w IH]; intros y; cbn [follow].
  - split; [intros H; injection H as <-; constructor|intros H; inversion H; reflexivity].
  - split.
    + destruct (follow h w x) as [z| |] eqn:F; cbn [rbind]; try discriminate. pose proof (proj1 (IH z) eq_refl) as L. clear F.
      destruct b; [unfold car|unfold cdr]; (destruct z as [|i|p]; try discriminate); (destruct (nth_error h p) as [o|] eqn:Ho; [|discriminate]);
        intros E; injection E as <-; eauto using leads.
    + intros H. inversion H as [|w' p o x' L Ho|w' p o x' L Ho]; subst; apply IH in L; rewrite L; cbn [rbind]; [unfold car|unfold cdr]; rewrite Ho; reflexivity.
Qed.
(** The thirty procedures are the thirty names of up to four letters, and each gives the
    object that its letters lead to, if they lead to one *)
Theorem C125_accessors : (forall name f, In (name, f) accessors -> exists w, path name = Some w /\ forall h x y, f h x = Done y <-> leads h w x y) /\
  (forall name w, path name = Some w -> 1 <= List.length w <= 4 -> In name (map fst accessors)).
Proof.
  split.
  - intros name f I0.
    assert (H : Forall (fun p => exists w, path (fst p) = Some w /\ forall h x, snd p h x = follow h w x) accessors).
    { unfold accessors. repeat (apply Forall_cons; [eexists; split; [reflexivity|intros h x; reflexivity]|]). apply Forall_nil. }
    rewrite Forall_forall in H. destruct (H _ I0) as (w & E & F). exists w. split; [exact E|]. intros h x y. cbn [snd] in F. rewrite F. apply follow_leads.
  - intros name w E L. assert (H : existsb (String.eqb (String "c" (render w))) (map fst accessors) = true).
    { destruct w as [|a1 [|a2 [|a3 [|a4 [|a5 w]]]]]; cbn [List.length] in L; try lia; repeat match goal with b : bool |- _ => destruct b end; vm_compute; reflexivity. }
    apply existsb_exists in H. destruct H as (n & I0 & En). apply String.eqb_eq in En. subst n.
    destruct name as [|c s]; [discriminate|]. cbn [path] in E. destruct c as [[] [] [] [] [] [] [] []]; try discriminate E.
    rewrite (letters_render s w E). exact I0.
Qed.
Print Assumptions C125_accessors.

(** The pairs from this object on, their addresses and elements, and what comes after the last one *)
Inductive spine (h : heap) : val -> list (nat * val) -> val -> Prop :=
| S_end v : spine h v [] v
| S_pair p a d l e : nth_error h p = Some (Obj true a d) -> spine h d l e -> spine h (Ptr p) ((p, a) :: l) e.
Lemma put_same h p o : p < List.length h -> nth_error (put h p o) p = Some o.
Proof. revert p. induction h as [|x h IH]; intros [|p] L; cbn in *; try lia; [reflexivity|apply IH; lia]. Qed.
Lemma put_other h p o q : q <> p -> nth_error (put h p o) q = nth_error h q.
Proof. revert p q. induction h as [|x h IH]; intros [|p] [|q] N; cbn; try reflexivity; try lia. apply IH. lia. Qed.
Lemma spine_frame h h' x l e : spine h x l e -> (forall p, In p (map fst l) -> nth_error h' p = nth_error h p) -> spine h' x l e.
Proof.
  induction 1 as [v|p a d l e Hp S IH]; intros F; [constructor|]. econstructor; [rewrite F by (left; reflexivity); exact Hp|].
  apply IH. intros q Iq. apply F. right. exact Iq.
Qed.
Lemma spine_split h x l m e : spine h x (l ++ m) e -> exists y, spine h x l y /\ spine h y m e.
Proof.
  revert x. induction l as [|[p a] l IH]; intros x H; cbn [app] in H; [exists x; split; [constructor|exact H]|].
  inversion H as [|? ? d ? ? Hp S]; subst. destruct (IH _ S) as (y & S1 & S2). exists y. split; [econstructor; eassumption|exact S2].
Qed.
Lemma spine_join h x l y m e : spine h x l y -> spine h y m e -> spine h x (l ++ m) e.
Proof. induction 1 as [v|p a d l e' Hp S IH]; intros H; [exact H|]. cbn [app]. econstructor; [exact Hp|apply IH, H]. Qed.
Lemma last_but_one_finds h l : forall x p a q b fuel, spine h x (l ++ [(p, a); (q, b)]) Nil -> List.length l < fuel -> last_but_one fuel h x = Done (Ptr p).
Proof.
  induction l as [|[r c] l IH]; intros x p a q b fuel H L; (destruct fuel as [|fuel]; [cbn in L; lia|]); cbn [app] in H.
  - inversion H as [|? ? d ? ? Hp S]; subst. inversion S as [|? ? d2 ? ? Hq S2]; subst. inversion S2; subst.
    cbn [last_but_one cdr rbind]. rewrite Hp. cbn [rbind second cdr]. rewrite Hq. reflexivity.
  - inversion H as [|? ? d ? ? Hr S]; subst. cbn [last_but_one cdr rbind]. rewrite Hr. cbn [rbind second].
    assert (D : exists p1 o1 , d = Ptr p1 /\ nth_error h p1 = Some o1 /\ is_null (second o1) = false).
    { destruct l as [|[r1 c1] l]; cbn [app] in S; inversion S as [|? ? d2 ? ? H1 S1]; subst; [|destruct l as [|[r2 c2] l]; cbn [app] in S1];
        inversion S1; subst; eexists _, _; (split; [reflexivity|]); (split; [eassumption|reflexivity]). }
    destruct D as (p1 & o1 & -> & H1 & N1). cbn [cdr rbind]. rewrite H1. cbn [rbind]. rewrite N1. apply (IH _ p a q b); [exact S|cbn in L; lia].
Qed.
(** cons* of two or more arguments: the pairs of the arguments but the last one, ending in
    the last one; nothing else changes.  Of one argument: that argument *)
Theorem C125_cons_star : forall fuel h x l,
  (forall p a q b, spine h x (l ++ [(p, a); (q, b)]) Nil -> NoDup (map fst (l ++ [(p, a); (q, b)])) -> List.length l < fuel ->
    exists h', cons_star fuel h x = Done (Some x, h') /\ spine h' x (l ++ [(p, a)]) b /\ forall r, r <> p -> nth_error h' r = nth_error h r) /\
  (forall p a, spine h x [(p, a)] Nil -> cons_star fuel h x = Done (Some a, h)).
Proof.
  intros fuel h x l. split.
  - intros p a q b S D L. pose proof (last_but_one_finds h l x p a q b fuel S L) as F.
    destruct (spine_split _ _ _ _ _ S) as (y & S1 & S2). inversion S2 as [|? ? d ? ? Hp S3]; subst. inversion S3 as [|? ? d2 ? ? Hq S4]; subst. inversion S4; subst.
    assert (Lp : p < List.length h) by (apply nth_error_Some; rewrite Hp; discriminate).
    exists (put h p (Obj true a b)). split; [|split].
    + assert (X : exists x1 o, x = Ptr x1 /\ nth_error h x1 = Some o /\ is_null (second o) = false).
      { destruct l as [|[r c] l]; cbn [app] in S; inversion S as [|? ? d ? ? H1 S']; subst.
        - inversion S'; subst. eexists _, _. split; [reflexivity|]. split; [exact H1|reflexivity].
        - destruct l as [|[r2 c2] l]; cbn [app] in S'; inversion S'; subst; (eexists _, _; split; [reflexivity|]; split; [exact H1|reflexivity]). }
      destruct X as (x1 & o & -> & H1 & N1). unfold cons_star. cbn [is_null cdr]. rewrite H1. cbn [rbind]. rewrite N1, F. cbn [rbind cdr]. rewrite Hp. cbn [rbind second car]. rewrite Hq.
      cbn [rbind first set_cdr]. rewrite Hp. reflexivity.
    + apply (spine_join _ _ l (Ptr p)).
      * eapply spine_frame; [exact S1|]. intros r Ir. apply put_other. intros ->. rewrite map_app in D. cbn [map fst] in D.
        apply NoDup_remove_2 in D. apply D, in_or_app. left. exact Ir.
      * econstructor; [apply put_same, Lp|constructor].
    + intros r N. apply put_other, N.
  - intros p a S. inversion S as [|? ? d ? ? Hp S3]; subst. inversion S3; subst. unfold cons_star. cbn [is_null cdr car]. rewrite Hp. reflexivity.
Qed.
Print Assumptions C125_cons_star.
(** The arguments are not copied: a list of two or more elements given to apply with cons*
    is no longer that list afterwards, whatever its elements are, but for a list whose last
    element is its own last pair.  SRFI 1 has cons* leave its arguments alone *)
Theorem C125_cons_star_refuted : forall fuel h x l p a q b, spine h x (l ++ [(p, a); (q, b)]) Nil -> NoDup (map fst (l ++ [(p, a); (q, b)])) -> List.length l < fuel ->
  b <> Ptr q -> exists h', cons_star fuel h x = Done (Some x, h') /\ ~ spine h' x (l ++ [(p, a); (q, b)]) Nil.
Proof.
  intros fuel h x l p a q b S D L N. destruct (C125_cons_star fuel h x l) as [C _]. destruct (C p a q b S D L) as (h' & E & S' & _). exists h'. split; [exact E|].
  intros H. destruct (spine_split _ _ _ _ _ S') as (y & _ & S2). inversion S2 as [|? ? d ? ? Hp S3]; subst. inversion S3; subst.
  destruct (spine_split _ _ _ _ _ H) as (z & _ & S4). inversion S4 as [|? ? d ? ? Hp' S5]; subst. rewrite Hp in Hp'. injection Hp' as ->. inversion S5; subst. apply N. reflexivity.
Qed.
Print Assumptions C125_cons_star_refuted.
(** What apply calls with two arguments, a procedure and a list: the procedure, with that
    very list as its arguments; list returns the list of its arguments *)
Theorem C125_not_copied : (forall proc ghost own (Inv : ghost -> Machine.heap -> list Machine.gval -> list Machine.val -> Reach.frame -> Prop), PropertiesControl.program proc own Inv ->
    forall l h g a P xs f v s e c d Q, Inv l h g a P -> Reach.lib P -> Reach.lst P xs [f; v] ->
    (forall h' P', Inv l h' g a P' -> Reach.sub P P' -> Reach.calls proc f v s e c d h' g a Q) ->
    Reach.calls proc (LibraryCode.global "apply") xs s e c d h g a Q) /\
  (forall h xs, list_ h xs = (xs, h)).
Proof.
  split; [|reflexivity]. intros proc ghost own Inv (Hp & Ok) l h g a P xs f v s e c d Q I0 L X K. change (LibraryCode.global "apply") with (Machine.VPtr 129).
  eapply (MapProofs.apply_two proc Hp _ _ _ Ok); eassumption.
Qed.
Print Assumptions C125_not_copied.
(** R7RS 4.1.4 and 6.4: the list of a rest parameter, and the list that list returns, are
    newly allocated.  They are the list given to apply: changing them changes it *)
Theorem C125_fresh_refuted :
  ProgramText.notes "(define l (list 'a 'b)) (apply (lambda xs (set-car! xs 'c)) l) (map note l)" = Some (map LibraryCode.text_of ["c"; "b"]%string) /\
  ProgramText.notes "(define l (list 'a 'b)) (set-car! (apply list l) 'c) (map note l)" = Some (map LibraryCode.text_of ["c"; "b"]%string) /\
  ProgramText.notes "(define l (list 'a 'b)) (apply (lambda (x . xs) (set-car! xs 'c)) l) (map note l)" = Some (map LibraryCode.text_of ["a"; "c"]%string).
Proof. repeat split; vm_compute; reflexivity. Qed.
Print Assumptions C125_fresh_refuted.
(** cons* without arguments is an error, and the only one: with arguments that are a list it returns *)
Theorem C125_cons_star_none : forall fuel h xs, (exists h', cons_star fuel h xs = Done (None, h')) <-> xs = Nil.
Proof.
  intros fuel h xs. split.
  - intros [h' H]. unfold cons_star in H. destruct xs as [|b|p]; [reflexivity| |]; cbn [is_null] in H.
    + discriminate H.
    + unfold rbind in H. repeat match type of H with context [match ?t with _ => _ end] => destruct t; try discriminate H end.
  - intros ->. exists h. reflexivity.
Qed.
Print Assumptions C125_cons_star_none.
(** xcons allocates one pair, which has the second argument as its car and the first as its cdr; no
    other object changes *)
Theorem C125_xcons : forall h x y, exists p h', xcons h x y = (Ptr p, h') /\ nth_error h p = None /\
  nth_error h' p = Some (Obj true y x) /\ forall q, q <> p -> nth_error h' q = nth_error h q.
Proof.
  intros h x y. exists (List.length h), (List.app h [Obj true y x]). split; [reflexivity|]. split.
  - apply nth_error_None. apply le_n.
  - split.
    + rewrite nth_error_app2, PeanoNat.Nat.sub_diag by apply le_n. reflexivity.
    + intros q N. destruct (PeanoNat.Nat.lt_ge_cases q (List.length h)) as [L|L].
      * apply nth_error_app1. exact L.
      * rewrite nth_error_app2 by exact L. rewrite (proj2 (nth_error_None h q)) by exact L.
        destruct (q - List.length h) as [|[|k]] eqn:Q; try reflexivity.
        exfalso. apply N. apply PeanoNat.Nat.le_antisymm; [apply PeanoNat.Nat.sub_0_le; exact Q | exact L].
Qed.
Print Assumptions C125_xcons.
(** (cadr '(1 2)), (cons* 1 2), (cons* 1 2 3) *)
Example C125_ex :
  let h := [Obj true (Imm 1) (Ptr 1); Obj true (Imm 2) Nil; Obj true (Imm 1) (Ptr 3); Obj true (Imm 2) (Ptr 4); Obj true (Imm 3) Nil] in
  cadr h (Ptr 0) = Done (Imm 2) /\ cddr h (Ptr 0) = Done Nil /\ caar h (Ptr 0) = Ub /\
  cons_star 9 h (Ptr 0) = Done (Some (Ptr 0), put h 0 (Obj true (Imm 1) (Imm 2))) /\
  cons_star 9 h (Ptr 2) = Done (Some (Ptr 2), put h 3 (Obj true (Imm 2) (Imm 3))) /\ cons_star 9 h (Ptr 4) = Done (Some (Imm 3), h) /\
  xcons [] (Imm 1) (Imm 2) = (Ptr 0, [Obj true (Imm 2) (Imm 1)]).
Proof. vm_compute. repeat split. Qed.
