(** Registers whose value belongs to the dynamic extent: what a transfer of control
    leaves in them. *)
From Coq Require Import ZArith List Bool Lia.
From Verif Require Import Machine Generator Evaluate LibraryCode Reach Symbolic ContinuationProofs WindSpec.
Import ListNotations.

Section Transfers.
Variable proc : nat -> heap -> val -> presult.
Variable ghost : Type.
Variable Inv : ghost -> heap -> list gval -> list val -> frame -> Prop.
Variable aim : state -> Prop.
Notation returns := (returns proc ghost Inv aim).
(** The register: 1 for the bindings of parameters, 2 for the handlers of exceptions *)
Variable reg : nat.
(** x is a thunk that puts the list vs into the register, and does nothing else *)
Definition installs (P : frame) (x : val) (vs : list val) : Prop :=
  forall l a P', sub P P' -> returns x VNil l a P' (fun _ l' a' P2 => l' = l /\ exists w, a' = update a reg w /\ lst P2 w vs).
(** ** Transfers of control *)
(** The values that belong to a list of extents; a before thunk makes those of its extent
    from those around it, an after thunk the other way round *)
Definition keeps (beta : list extent -> list val) (P : frame) (F : list extent) : Prop :=
  forall F0 x F1, F = F0 ++ x :: F1 ->
  (forall l a P' X, sub P P' -> (exists v, nth_error a reg = Some v /\ lst P' v (beta F1)) ->
    returns (before x) VNil l (update a 0 X) P' (fun _ l' a' P2 => exists v, nth_error a' reg = Some v /\ lst P2 v (beta (x :: F1)))) /\
  (forall l a P' X, sub P P' -> (exists v, nth_error a reg = Some v /\ lst P' v (beta (x :: F1))) ->
    returns (after x) VNil l (update a 0 X) P' (fun _ l' a' P2 => exists v, nth_error a' reg = Some v /\ lst P2 v (beta F1))).
Lemma keeps_tail beta P x F : keeps beta P (x :: F) -> keeps beta P F.
Proof. intros H F0 y F1 ->. apply (H (x :: F0) y F1). reflexivity. Qed.
Lemma keeps_up beta P P' F : sub P P' -> keeps beta P F -> keeps beta P' F.
Proof.
  intros U H F0 x F1 E. destruct (H F0 x F1 E) as [A B]. split; intros l a P2 X V; [apply A|apply B]; eapply sub_trans; eassumption.
Qed.
Notation runs := (runs proc ghost Inv aim).
Definition current (beta : list val) (a : list val) (P : frame) : Prop := exists v, nth_error a reg = Some v /\ lst P v beta.
Lemma enter_keeps beta T : forall l a P, keeps beta P T -> current (beta []) a P -> runs (enter_all T) l a P (fun l' a' P' => current (beta T) a' P').
Proof.
  induction T as [|t T IH]; intros l a P K C; cbn [enter_all]; [exact C|]. apply runs_app.
  eapply runs_mono; [|apply IH; [eapply keeps_tail, K|exact C]]. intros l' a' P' U C'. cbn [ContinuationProofs.runs].
  apply (proj1 (keeps_up _ _ _ _ U K [] t T eq_refl)); [apply sub_refl|exact C'].
Qed.
Lemma windup_keeps beta F : forall T l a P, consistent F T -> keeps beta P F -> keeps beta P T -> current (beta F) a P ->
  runs (windup F T) l a P (fun l' a' P' => current (beta T) a' P').
Proof.
  induction F as [|f F IH]; intros T l a P C KF KT A.
  - destruct T as [|t T]; [exact A|]. cbn [windup spine val_eqb]. apply enter_keeps; assumption.
  - destruct T as [|t T]; cbn [windup].
    + cbn [spine val_eqb ContinuationProofs.runs]. eapply returns_mono; [|apply (proj2 (KF [] f F eq_refl)); [apply sub_refl|exact A]].
      intros v l' a' P' U A'. apply IH.
      * intros F0 x F1 T0 t T1 _ E. destruct T0; discriminate E.
      * eapply keeps_up; [exact U|eapply keeps_tail, KF].
      * eapply keeps_up; [exact U|exact KT].
      * exact A'.
    + rewrite spine_eqb. destruct (Nat.eqb_spec (place f) (place t)) as [E|E].
      * destruct (C [] f F [] t T eq_refl eq_refl E) as [-> ->]. exact A.
      * cbn [ContinuationProofs.runs]. eapply returns_mono; [|apply (proj2 (KF [] f F eq_refl)); [apply sub_refl|exact A]].
        intros v l' a' P' U A'. apply runs_app. eapply runs_mono; [|apply (IH T)].
        -- intros l2 a2 P2 U2 A2. cbn [ContinuationProofs.runs].
           apply (proj1 (keeps_up _ _ _ _ (sub_trans _ _ _ U U2) KT [] t T eq_refl)); [apply sub_refl|exact A2].
        -- eapply consistent_tails, C.
        -- eapply keeps_up; [exact U|eapply keeps_tail, KF].
        -- eapply keeps_up; [exact U|eapply keeps_tail, KT].
        -- exact A'.
Qed.
End Transfers.
