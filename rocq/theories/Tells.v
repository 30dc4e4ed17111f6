(** The relation [shows] of LabelsSpec.v with the list of the pairs and vectors (but empty ones)
    that the text describes part by part, for the proofs about sharing. *)
From Coq Require Import List Arith.
From Verif Require Import Lists Labels LabelsSpec.
Import ListNotations.

Definition own {A} (vs : list val) (x : A) : list A := match vs with [] => [] | _ => [x] end.
Inductive tells (h : store) : scope -> list token -> val -> scope -> list nat -> Prop :=
| Tells_atom : forall E v, atomic h v -> tells h E [TAtom v] v E []
| Tells_nil : forall E, tells h E [TOpen; TClose] Nil E []
| Tells_use : forall E n p, stands n p E -> tells h E [TUse n] (Ptr p) E []
| Tells_decl : forall E n p ts E' D, fresh n E -> ts <> [TUse n] -> tells h ((n, p) :: E) ts (Ptr p) E' D ->
    tells h E (TDecl n :: ts) (Ptr p) E' D
| Tells_pair : forall E p a d ts us E1 E2 D1 D2, nth_error h p = Some (Cons a d) ->
    tells h E ts a E1 D1 -> tells_rest h E1 us d E2 D2 -> tells h E (TOpen :: ts ++ us) (Ptr p) E2 (p :: D1 ++ D2)
| Tells_vector : forall E p vs ts E' D, nth_error h p = Some (Vector vs) ->
    tells_all h E ts vs E' D -> tells h E (TVec :: ts ++ [TClose]) (Ptr p) E' (own vs p ++ D)
with tells_rest (h : store) : scope -> list token -> val -> scope -> list nat -> Prop :=
| TRest_nil : forall E, tells_rest h E [TClose] Nil E []
| TRest_dot : forall E ts v E' D, tells h E ts v E' D -> tells_rest h E (TDot :: ts ++ [TClose]) v E' D
| TRest_pair : forall E p a d ts us E1 E2 D1 D2, nth_error h p = Some (Cons a d) ->
    tells h E ts a E1 D1 -> tells_rest h E1 us d E2 D2 -> tells_rest h E (ts ++ us) (Ptr p) E2 (p :: D1 ++ D2)
with tells_all (h : store) : scope -> list token -> list val -> scope -> list nat -> Prop :=
| TAll_nil : forall E, tells_all h E [] [] E []
| TAll_cons : forall E ts v E1 us vs E2 D1 D2, tells h E ts v E1 D1 -> tells_all h E1 us vs E2 D2 ->
    tells_all h E (ts ++ us) (v :: vs) E2 (D1 ++ D2).
Scheme tells_mut := Induction for tells Sort Prop
  with tells_rest_mut := Induction for tells_rest Sort Prop
  with tells_all_mut := Induction for tells_all Sort Prop.
Combined Scheme tells_ind3 from tells_mut, tells_rest_mut, tells_all_mut.
Scheme shows_mut := Induction for shows Sort Prop
  with shows_rest_mut := Induction for shows_rest Sort Prop
  with shows_all_mut := Induction for shows_all Sort Prop.
Combined Scheme shows_ind3 from shows_mut, shows_rest_mut, shows_all_mut.

Lemma tells_shows3 h :
  (forall E ts v E' D, tells h E ts v E' D -> shows h E ts v E') /\
  (forall E ts v E' D, tells_rest h E ts v E' D -> shows_rest h E ts v E') /\
  (forall E ts vs E' D, tells_all h E ts vs E' D -> shows_all h E ts vs E').
Proof. apply tells_ind3; intros; econstructor; eassumption. Qed.
Lemma shows_tells3 h :
  (forall E ts v E', shows h E ts v E' -> exists D, tells h E ts v E' D) /\
  (forall E ts v E', shows_rest h E ts v E' -> exists D, tells_rest h E ts v E' D) /\
  (forall E ts vs E', shows_all h E ts vs E' -> exists D, tells_all h E ts vs E' D).
Proof.
  apply shows_ind3; intros; repeat match goal with H : exists _, _ |- _ => destruct H end; eexists; econstructor; eassumption.
Qed.
Lemma tells_shows h E ts v E' D : tells h E ts v E' D -> shows h E ts v E'.
Proof. apply (tells_shows3 h). Qed.
Lemma shows_tells h E ts v E' : shows h E ts v E' -> exists D, tells h E ts v E' D.
Proof. apply (shows_tells3 h). Qed.
