(** Which thunks a transfer of control runs: the specification of R7RS and what the
    algorithm of library/meevax.ss computes. *)
From Coq Require Import ZArith List Bool Lia.
From Verif Require Import Machine Generator Evaluate LibraryCode Reach ContinuationProofs.
Import ListNotations.

(** ** Specification (R7RS 6.10, dynamic-wind) *)
(** Two lists of extents, split into what is left, what is entered and what is common *)
Definition parted (F T F' T' K : list extent) : Prop :=
  F = F' ++ K /\ T = T' ++ K /\ (forall f t, In f F' -> In t T' -> place f <> place t).
(** The after thunks of the extents that are left, innermost first, then the before
    thunks of the extents that are entered, outermost first *)
Definition transfer (F' T' : list extent) : list val := map after F' ++ rev (map before T').

(** Lists of extents of the same heap *)
Definition consistent (F T : list extent) : Prop :=
  forall F0 f F1 T0 t T1, F = F0 ++ f :: F1 -> T = T0 ++ t :: T1 -> place f = place t -> f = t /\ F1 = T1.

Lemma chain_unique (P : frame) : (forall q o o', P q o -> P q o' -> o = o') -> forall F v T, chain P v F -> chain P v T -> F = T.
Proof.
  intros U. induction F as [|f F IH]; intros v T CF CT; inversion CF; subst; inversion CT; subst; [reflexivity|].
  match goal with A : P ?p (OPair (VPtr ?x) ?y), B : P ?p (OPair (VPtr ?x') ?y') |- _ => pose proof (U _ _ _ A B) as E end. injection E as -> ->.
  match goal with A : P ?p (OPair ?x ?y), B : P ?p (OPair ?x' ?y'), C : chain _ ?w F |- _ => pose proof (U _ _ _ A B) as E; injection E as -> -> end.
  f_equal. eapply IH; eassumption.
Qed.
Lemma chain_suffix P v F0 f F1 : chain P v (F0 ++ f :: F1) -> chain P (VPtr (place f)) (f :: F1).
Proof.
  revert v. induction F0 as [|x F0 IH]; cbn [app]; intros v C; inversion C; subst.
  - econstructor; eassumption.
  - eapply IH. eassumption.
Qed.
Lemma chain_consistent (P : frame) v w F T : (forall q o o', P q o -> P q o' -> o = o') -> chain P v F -> chain P w T -> consistent F T.
Proof.
  intros U CF CT F0 f F1 T0 t T1 -> -> E. apply chain_suffix in CF, CT. rewrite E in CF.
  assert (f :: F1 = t :: T1) as H by (eapply chain_unique; eassumption). injection H as -> ->. split; reflexivity.
Qed.
Lemma consistent_tails f F t T : consistent (f :: F) (t :: T) -> consistent F T.
Proof. intros C F0 x F1 T0 y T1 -> -> E. eapply (C (f :: F0) x F1 (t :: T0) y T1); [reflexivity|reflexivity|exact E]. Qed.

(** ** What windup! runs *)
Lemma windup_from_nil T : map fst (windup [] T) = rev (map before T).
Proof.
  destruct T as [|t T]; [reflexivity|]. cbn [windup spine val_eqb].
  enough (G : forall T, map fst (enter_all T) = rev (map before T)) by apply G. clear.
  induction T as [|t T IH]; [reflexivity|]. cbn [enter_all]. rewrite map_app. cbn [map fst rev]. f_equal. exact IH.
Qed.
Lemma windup_to_nil F : map fst (windup F []) = map after F.
Proof. induction F as [|f F IH]; [reflexivity|]. cbn [windup spine val_eqb map fst]. f_equal. exact IH. Qed.
Lemma spine_eqb f F t T : val_eqb (spine (f :: F)) (spine (t :: T)) = (place f =? place t). Proof. reflexivity. Qed.
(** Nothing is recognised as common unless the lists are of the same length *)
Lemma windup_unequal F : forall T, consistent F T -> length F <> length T -> map fst (windup F T) = transfer F T.
Proof.
  induction F as [|f F IH]; intros T C N; [apply windup_from_nil|]. destruct T as [|t T].
  { rewrite windup_to_nil. unfold transfer. cbn [map rev]. rewrite app_nil_r. reflexivity. }
  cbn [windup]. rewrite spine_eqb. destruct (Nat.eqb_spec (place f) (place t)) as [E|E].
  { destruct (C [] f F [] t T eq_refl eq_refl E) as [_ ->]. cbn in N. lia. }
  cbn [map fst]. rewrite map_app, IH; [|eapply consistent_tails, C|cbn in N; lia]. unfold transfer. cbn [map fst app rev]. rewrite <- app_assoc. reflexivity.
Qed.
Lemma windup_equal F' : forall T' K, consistent (F' ++ K) (T' ++ K) -> (forall f t, In f F' -> In t T' -> place f <> place t) ->
  length F' = length T' -> map fst (windup (F' ++ K) (T' ++ K)) = transfer F' T'.
Proof.
  induction F' as [|f F' IH]; intros [|t T'] K C D N; cbn in N; try lia; cbn [app].
  { destruct K as [|k K]; cbn [windup]; [reflexivity|]. rewrite spine_eqb, Nat.eqb_refl. reflexivity. }
  cbn [app] in C. cbn [windup]. rewrite spine_eqb. destruct (Nat.eqb_spec (place f) (place t)) as [E|E]; [exfalso; eapply D; [left; reflexivity|left; reflexivity|exact E]|].
  cbn [map fst]. rewrite map_app, IH; [|eapply consistent_tails, C|intros x y X Y; apply D; right; assumption|lia].
  unfold transfer. cbn [map fst app rev]. rewrite <- app_assoc. reflexivity.
Qed.
(** The thunks are those of the specification exactly if the numbers of extents left and
    entered are equal or nothing is common *)
Theorem windup_right F T F' T' K : consistent F T -> parted F T F' T' K ->
  (map fst (windup F T) = transfer F' T' <-> length F' = length T' \/ K = []).
Proof.
  intros C (-> & -> & D). split.
  - intros E. destruct (Nat.eq_dec (length F') (length T')) as [H|H]; [left; exact H|right].
    rewrite windup_unequal in E; [|exact C|rewrite !app_length; lia]. apply (f_equal (@length _)) in E.
    unfold transfer in E. rewrite !app_length, !rev_length, !map_length, !app_length in E. apply length_zero_iff_nil. lia.
  - intros [H| ->]; [apply windup_equal; assumption|]. rewrite !app_nil_r in *.
    destruct (Nat.eq_dec (length F') (length T')) as [H|H]; [|apply windup_unequal; assumption].
    pose proof (windup_equal F' T' []) as W. rewrite !app_nil_r in W. apply W; assumption.
Qed.
(** Otherwise every extent of the one list is left and every extent of the other entered *)
Lemma windup_wrong F T F' T' K : consistent F T -> parted F T F' T' K -> length F' <> length T' -> map fst (windup F T) = transfer F T.
Proof. intros C (-> & -> & D) H. apply windup_unequal; [exact C|rewrite !app_length; lia]. Qed.
(** Lists of extents can be parted *)
Lemma parted_exists F T : consistent F T -> exists F' T' K, parted F T F' T' K.
Proof.
  induction F as [|f F IH]; intros C.
  { exists [], T, []. repeat split; [rewrite app_nil_r; reflexivity|intros f t []]. }
  destruct (find (fun t => place f =? place t) T) as [t|] eqn:E.
  - pose proof (find_some _ _ E) as [Hin He]. apply Nat.eqb_eq in He. destruct (in_split _ _ Hin) as (T0 & T1 & ->).
    destruct (C [] f F T0 t T1 eq_refl eq_refl He) as [-> ->]. exists [], T0, (t :: T1). repeat split. intros x y [].
  - assert (C' : consistent F T) by (intros F0 x F1 T0 y T1 -> -> He; eapply (C (f :: F0) x F1 T0 y T1); [reflexivity|reflexivity|exact He]).
    destruct (IH C') as (F' & T' & K & -> & -> & D). exists (f :: F'), T', K. split; [reflexivity|]. split; [reflexivity|].
    intros x t [<-|Hx] Ht; [|apply D; assumption]. pose proof (find_none _ _ E t (in_or_app _ _ _ (or_introl Ht))) as N. apply Nat.eqb_neq in N. exact N.
Qed.

(** ** Where the thunks run: each before thunk outside of its extent, but each after thunk
    inside of it, while R7RS wants it outside too *)
Lemma windup_where F : forall T x X, In (x, X) (windup F T) ->
  (exists F0 f F1, F = F0 ++ f :: F1 /\ x = after f /\ X = VPtr (place f)) \/
  (exists T0 t T1, T = T0 ++ t :: T1 /\ x = before t /\ X = spine T1).
Proof.
  induction F as [|f F IH]; intros T x X H.
  - right. destruct T as [|t T]; [destruct H|]. cbn [windup spine val_eqb] in H. revert H. generalize (t :: T). clear. intros T.
    induction T as [|t T IH]; cbn [enter_all]; [intros []|]. intros H. apply in_app_iff in H. destruct H as [H|[H|[]]].
    + destruct (IH H) as (T0 & t' & T1 & -> & E & E'). exists (t :: T0), t', T1. auto.
    + injection H as <- <-. exists [], t, T. auto.
  - destruct T as [|t T]; cbn [windup] in H; rewrite ?spine_eqb in H; cbn [spine val_eqb] in H.
    + destruct H as [H|H]; [injection H as <- <-; left; exists [], f, F; auto|].
      destruct (IH [] x X H) as [(F0 & f' & F1 & -> & E)|(T0 & t & T1 & E & _)]; [|destruct T0; discriminate E].
      left. exists (f :: F0), f', F1. auto.
    + destruct (place f =? place t); [destruct H|]. destruct H as [H|H]; [injection H as <- <-; left; exists [], f, F; auto|].
      apply in_app_iff in H. destruct H as [H|[H|[]]].
      * destruct (IH T x X H) as [(F0 & f' & F1 & -> & E)|(T0 & t' & T1 & -> & E)]; [left; exists (f :: F0), f', F1; auto|right; exists (t :: T0), t', T1; auto].
      * injection H as <- <-. right. exists [], t, T. auto.
Qed.
