(** Property theorems C26, C27 and C52: eq?, eqv? and equal?. *)
From Coq Require Import ZArith List Bool Lia PeanoNat.
From Verif Require Import Lists Equal EqualProofs.
Import ListNotations.

(** Example heap: 0 = #0=(1 . #0#), 1-2 = #1=(1 1 . #1#), 3 = (2 . #0#),
    4, 5 = two strings "ab", 6 = (vector (1 . 1-cycle)), 7 = the same, 8, 9 = vectors
    that contain themselves, 10, 11 = bytevectors of lengths 1 and 2, 12, 13 = boxes of 7 *)
Definition exh : eheap :=
  [EPair (ESmall 1) (EPtr 0); EPair (ESmall 1) (EPtr 2); EPair (ESmall 1) (EPtr 1); EPair (ESmall 2) (EPtr 0);
   EText [97; 98]%Z; EText [97; 98]%Z; EVec [EPtr 0]; EVec [EPtr 1]; EVec [EPtr 8]; EVec [EPtr 9];
   EBytes 0 [1]%Z; EBytes 0 [1; 2]%Z; ECell 0 (ESmall 7) ENil; ECell 0 (ESmall 7) ENil].

(** ** C26 On every heap of pairs over atoms, with any sharing and any cycles, equal? returns, and returns #t
    iff the unfoldings of its arguments agree at every depth.  Heaps with two
    homogeneous vectors of one kind but different lengths are excluded ([uniform]). *)
Theorem C26_equal_partial : forall h, uniform h -> (forall p xs, nth_error h p <> Some (EVec xs)) ->
  forall x y fuel, length h * length h + 1 <= fuel ->
  exists b, equal_p fuel h x y = Done b /\ (b = true <-> same_tree h x y).
Proof.
  exact (fun h U N x y fuel L => equal_spec h (fun _ => 0) U (no_vectors_levelled h N) 1 x y fuel (Nat.lt_0_succ 0)
           (eq_ind_r (fun k => k <= fuel) L (Nat.mul_1_l _))).
Qed.
(** the same for vectors, as long as no cycle passes through a vector *)
Theorem C26_equal_vectors_partial : forall h lvl, uniform h -> levelled h lvl -> forall n x y fuel, lvl x < n ->
  n * (length h * length h + 1) <= fuel ->
  exists b, equal_p fuel h x y = Done b /\ (b = true <-> same_tree h x y).
Proof. exact equal_spec. Qed.
Example C26_ex : equal_p 300 exh (EPtr 0) (EPtr 1) = Done true /\ equal_p 300 exh (EPtr 0) (EPtr 3) = Done false
  /\ equal_p 300 exh (EPtr 6) (EPtr 7) = Done true.
Proof. vm_compute. auto. Qed.
Example C26_hypotheses : let h := firstn 8 exh in uniform h /\
  levelled h (fun x => match x with EPtr 6 | EPtr 7 => 1 | _ => 0 end).
Proof.
  cbn. split.
  - intros p q k s t E. do 8 (destruct p as [|p]; [cbn in E; discriminate|]). destruct p; discriminate.
  - split.
    + intros p a d E. do 4 (destruct p as [|p]; [cbn in E; injection E as <- <-; cbn; lia|]). do 4 (destruct p as [|p]; [discriminate|]). destruct p; discriminate.
    + intros p xs E x I. do 6 (destruct p as [|p]; [cbn in E; discriminate|]).
      do 2 (destruct p as [|p]; [cbn in E; injection E as <-; destruct I as [<-|[]]; cbn; lia|]). destruct p; discriminate.
Qed.
Print Assumptions C26_equal_partial. Print Assumptions C26_equal_vectors_partial.
(** What is missing: two bytevectors of different lengths compare beyond the end of one *)
Theorem C26_lengths_refuted : exists h x y, forall fuel, equal_p (S fuel) h x y = Ub.
Proof. exists exh, (EPtr 10), (EPtr 11). reflexivity. Qed.
Print Assumptions C26_lengths_refuted.

(** ** C52 equal? terminates on all data.  Refuted for cyclic vectors: two vectors that
    contain themselves are compared forever. *)
Theorem C52_cyclic_vectors_refuted : forall h p q, nth_error h p = Some (EVec [EPtr p]) -> nth_error h q = Some (EVec [EPtr q]) -> p <> q ->
  forall fuel, equal_p fuel h (EPtr p) (EPtr q) = Loop.
Proof. exact cyclic_vectors_loop. Qed.
Example C52_ex : nth_error exh 8 = Some (EVec [EPtr 8]) /\ nth_error exh 9 = Some (EVec [EPtr 9]).
Proof. split; reflexivity. Qed.
Print Assumptions C52_cyclic_vectors_refuted.

(** ** C27 eq? implies eqv? implies equal? *)
Theorem C27_eq_eqv : forall fuel h x y, eq_p x y = true -> eqv_p fuel h x y = Done true.
Proof. exact eqv_of_eq. Qed.
Theorem C27_eqv_equal : forall fuel h x y, eqv_p fuel h x y = Done true -> equal_p (S fuel) h x y = Done true.
Proof. exact equal_of_eqv. Qed.
(** each is an equivalence relation: eq? is identity, *)
Theorem C27_eq_identity : forall x y, eq_p x y = true <-> x = y.
Proof. exact eqw_iff. Qed.
(** eqv? decides [atom], which is an equivalence, *)
Theorem C27_eqv_equivalence_partial : forall h lvl, uniform h -> levelled h lvl ->
  (forall x y fuel, (lvl x + 1) * (length h * length h + 1) <= fuel -> exists b, eqv_p fuel h x y = Done b /\ (b = true <-> atom h x y)) /\
  (forall x, atom h x x) /\ (forall x y, atom h x y -> atom h y x) /\ (forall x y z, atom h x y -> atom h y z -> atom h x z).
Proof. exact (fun h lvl U L => conj (eqv_p_spec h lvl U L) (conj (atom_refl h) (conj (atom_sym h) (atom_trans h)))). Qed.
(** and equal? decides [same_tree] (C26), which is one too *)
Theorem C27_equal_equivalence : forall h,
  (forall x, same_tree h x x) /\ (forall x y, same_tree h x y -> same_tree h y x) /\
  (forall x y z, same_tree h x y -> same_tree h y z -> same_tree h x z).
Proof. exact (fun h => conj (same_refl h) (conj (same_sym h) (same_trans h))). Qed.
Example C27_ex : eq_p (ESmall 3) (ESmall 3) = true /\ eqv_p 9 exh (EPtr 0) (EPtr 1) = Done false /\ equal_p 9 exh (EPtr 0) (EPtr 1) = Done true.
Proof. vm_compute. auto. Qed.
(** What is missing: eqv? does not distinguish separately allocated mutable objects.  It holds for
    any two strings with the same characters, any two vectors with equal? elements and
    any two boxes with eq? contents. *)
Theorem C27_strings_refuted : forall h p q s fuel, nth_error h p = Some (EText s) -> nth_error h q = Some (EText s) ->
  eqv_p fuel h (EPtr p) (EPtr q) = Done true.
Proof.
  intros h p q s fuel Ep Eq. unfold eqv_p, eqv_, object_eqv. cbn [at_addr]. rewrite Ep, Eq.
  destruct (eqw (EPtr p) (EPtr q)); [reflexivity|]. cbn [rbind]. rewrite (proj2 (zs_eqb_iff s s) eq_refl). reflexivity.
Qed.
Theorem C27_boxes_refuted : forall h p q c a d fuel, nth_error h p = Some (ECell c a d) -> nth_error h q = Some (ECell c a d) ->
  eqv_p fuel h (EPtr p) (EPtr q) = Done true.
Proof.
  intros h p q c a d fuel Ep Eq. unfold eqv_p, eqv_, object_eqv. cbn [at_addr]. rewrite Ep, Eq.
  destruct (eqw (EPtr p) (EPtr q)); [reflexivity|]. cbn [rbind]. rewrite Nat.eqb_refl, !eqw_refl. reflexivity.
Qed.
Theorem C27_vectors_refuted : eqv_p 300 exh (EPtr 6) (EPtr 7) = Done true /\ eq_p (EPtr 6) (EPtr 7) = false.
Proof. vm_compute. auto. Qed.
Example C27_refuted_ex : eqv_p 9 exh (EPtr 4) (EPtr 5) = Done true /\ eqv_p 9 exh (EPtr 12) (EPtr 13) = Done true.
Proof. vm_compute. auto. Qed.
Print Assumptions C27_eq_eqv. Print Assumptions C27_eqv_equal. Print Assumptions C27_eq_identity.
Print Assumptions C27_eqv_equivalence_partial. Print Assumptions C27_equal_equivalence.
Print Assumptions C27_strings_refuted. Print Assumptions C27_boxes_refuted. Print Assumptions C27_vectors_refuted.
