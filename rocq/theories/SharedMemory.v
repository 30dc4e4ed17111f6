(** A program around the library with pairs that anybody may write: what is in them is part
    of what the program remembers, not of the frame. *)
From Coq Require Import ZArith List Bool Lia.
From Verif Require Import Machine Generator Evaluate LibraryCode Reach Symbolic.
Import ListNotations.

Definition memory := nat -> option (val * val).
Definition upd (M : memory) (q : nat) (xy : val * val) : memory := fun r => if r =? q then Some xy else M r.
Definition in_memory (M : memory) : frame := fun q o => exists x y, M q = Some (x, y) /\ o = OPair x y.
Definition with_memory (P : frame) (M : memory) : frame := fun q o => P q o \/ in_memory M q o.
(** The invariant of the program with the memory hidden from the frame *)
Definition shared {ghost} (Inv : ghost -> heap -> list gval -> list val -> frame -> Prop) (lm : ghost * memory) (h : heap) (g : list gval) (a : list val) (P : frame) : Prop :=
  Inv (fst lm) h g a (with_memory P (snd lm)) /\ forall q o xy, P q o -> snd lm q = Some xy -> False.

Lemma upd_eq M q xy : upd M q xy q = Some xy.
Proof. unfold upd. rewrite Nat.eqb_refl. reflexivity. Qed.
Lemma upd_ne M q xy r : r <> q -> upd M q xy r = M r.
Proof. intros N. unfold upd. apply Nat.eqb_neq in N. rewrite N. reflexivity. Qed.

Section Shared.
Variable proc : nat -> heap -> val -> presult.
Hypothesis Proc : forall n h xs, n < length procedures -> proc n h xs = library_primitive n h xs.
Variable ghost : Type.
Variable Inv : ghost -> heap -> list gval -> list val -> frame -> Prop.
Variable own : nat -> Prop.
Hypothesis Ok0 : invariant own Inv.

Lemma shared_invariant : invariant own (shared Inv).
Proof.
  split.
  - intros [l M] h g a P q o (I & D) H. cbn [fst snd] in *. apply (inv_has _ _ Ok0 _ _ _ _ _ _ _ I). left. exact H.
  - intros [l M] h g a P o (I & D). cbn [fst snd] in *. split; cbn [fst snd].
    + eapply (inv_less _ _ Ok0); [|apply (inv_alloc _ _ Ok0), I]. intros q o' [[H|[-> ->]]|H]; [left; left; exact H|right; auto|left; right; exact H].
    + intros q o' [x y] [H|[-> ->]] E; [exact (D _ _ _ H E)|]. assert (H : nth_error h (length h) = Some (OPair x y)).
      { apply (inv_has _ _ Ok0 _ _ _ _ _ _ _ I). right. exists x, y. auto. }
      assert (length h < length h) by (apply nth_error_Some; congruence). lia.
  - intros [l M] h g a P P' S (I & D). cbn [fst snd] in *. split; cbn [fst snd].
    + eapply (inv_less _ _ Ok0); [|exact I]. intros q o [H|H]; [left; apply S, H|right; exact H].
    + intros q o xy H. apply (D q o xy), S, H.
  - intros [l M] h g a P q x y x' y' (I & D) H. cbn [fst snd] in *. split; cbn [fst snd].
    + eapply (inv_less _ _ Ok0); [|eapply (inv_write _ _ Ok0) with (q := q); [exact I|left; exact H]].
      intros r o [[[N Hr]|[-> ->]]|(x1 & y1 & E & ->)]; [left; split; [exact N|left; exact Hr]|right; auto|left].
      split; [intros ->; exact (D _ _ _ H E)|]. right. exists x1, y1. auto.
    + intros r o xy [[N Hr]|[-> ->]] E; [exact (D _ _ _ Hr E)|exact (D _ _ _ H E)].
  - intros [l M] h g a P i x O (I & D). split; [apply (inv_install _ _ Ok0); assumption|exact D].
  - intros [l M] h g a P i v (I & D). apply (inv_cells _ _ Ok0 _ _ _ _ _ _ _ I).
  - intros [l M] h g a P (I & D). exact (inv_registers _ _ Ok0 _ _ _ _ _ I).
Qed.
Lemma shared_has l M h g a P q x y : shared Inv (l, M) h g a P -> M q = Some (x, y) -> nth_error h q = Some (OPair x y).
Proof. intros (I & _) E. apply (inv_has _ _ Ok0 _ _ _ _ _ _ _ I). right. exists x, y. auto. Qed.
Lemma shared_write l M h g a P q x y x' y' : shared Inv (l, M) h g a P -> M q = Some (x, y) -> shared Inv (l, upd M q (x', y')) (update h q (OPair x' y')) g a P.
Proof.
  intros (I & D) E. cbn [fst snd] in *. split; cbn [fst snd].
  - eapply (inv_less _ _ Ok0); [|eapply (inv_write _ _ Ok0) with (q := q); [exact I|right; exists x, y; auto]].
    intros r o [H|(x1 & y1 & F & ->)].
    + left. split; [intros ->; exact (D _ _ _ H E)|left; exact H].
    + destruct (Nat.eq_dec r q) as [->|N]; [rewrite upd_eq in F; injection F as -> ->; right; auto|rewrite upd_ne in F by exact N].
      left. split; [exact N|]. right. exists x1, y1. auto.
  - intros r o xy H F. destruct (Nat.eq_dec r q) as [->|N]; [exact (D _ _ _ H E)|rewrite upd_ne in F by exact N; exact (D _ _ _ H F)].
Qed.
Lemma shared_same l M M' h g a P : (forall r, M' r = M r) -> shared Inv (l, M) h g a P -> shared Inv (l, M') h g a P.
Proof.
  intros S (I & D). cbn [fst snd] in *. split; cbn [fst snd].
  - eapply (inv_less _ _ Ok0); [|exact I]. intros q o [H|(x & y & E & ->)]; [left; exact H|right; exists x, y; rewrite <- S; auto].
  - intros q o xy H E. rewrite S in E. exact (D _ _ _ H E).
Qed.
(** A pair of the frame that is new may be put into the memory *)
Lemma shared_add l M h g a P P0 q x y : shared Inv (l, M) h g a P -> P q (OPair x y) -> sub P0 P -> (forall r o, P0 r o -> r <> q) ->
  M q = None /\ shared Inv (l, upd M q (x, y)) h g a P0.
Proof.
  intros (I & D) H S F. cbn [fst snd] in *. split; [destruct (M q) as [xy|] eqn:E; [exfalso; exact (D _ _ _ H E)|reflexivity]|]. split; cbn [fst snd].
  - eapply (inv_less _ _ Ok0); [|exact I]. intros r o [Hr|(x1 & y1 & E & ->)]; [left; apply S, Hr|].
    destruct (Nat.eq_dec r q) as [->|N]; [rewrite upd_eq in E; injection E as -> ->; left; exact H|rewrite upd_ne in E by exact N; right; exists x1, y1; auto].
  - intros r o xy Hr E. rewrite upd_ne in E by exact (F r o Hr). exact (D _ _ _ (S _ _ Hr) E).
Qed.

Let Ok := shared_invariant.
Notation reaches := (reaches proc).
Notation calls := (calls proc).
Section Call.
Variables (l : ghost) (M : memory) (h : heap) (g : list gval) (a : list val) (P : frame).
Hypothesis I : shared Inv (l, M) h g a P.
Hypothesis L : lib P.
Variables (s : list val) (e : val) (c : code) (d : dump).
Variable Q : state -> Prop.
Ltac arg n x A := rewrite (lst_head _ _ _ Ok _ _ _ _ _ _ _ n x I A) by reflexivity.
Lemma m_car xs p x y : lst P xs [VPtr p] -> M p = Some (x, y) -> reaches (St (x :: s) e c d h g a) Q -> calls (VPtr 104) xs s e c d h g a Q.
Proof.
  intros A E K. eapply (c_prim _ Proc _ _ _ Ok (l, M) 1); [exact I|exact L|cbn; lia| |exact K]. cbn [library_primitive primitive].
  arg 0 (VPtr p) A. cbn [car]. rewrite (shared_has _ _ _ _ _ _ _ _ _ I E). reflexivity.
Qed.
Lemma m_cdr xs p x y : lst P xs [VPtr p] -> M p = Some (x, y) -> reaches (St (y :: s) e c d h g a) Q -> calls (VPtr 105) xs s e c d h g a Q.
Proof.
  intros A E K. eapply (c_prim _ Proc _ _ _ Ok (l, M) 2); [exact I|exact L|cbn; lia| |exact K]. cbn [library_primitive primitive].
  arg 0 (VPtr p) A. cbn [cdr]. rewrite (shared_has _ _ _ _ _ _ _ _ _ I E). reflexivity.
Qed.
Lemma m_cadr xs p q x y z : lst P xs [VPtr p] -> M p = Some (x, VPtr q) -> M q = Some (y, z) -> reaches (St (y :: s) e c d h g a) Q -> calls (VPtr 115) xs s e c d h g a Q.
Proof.
  intros A E F K. eapply (c_prim _ Proc _ _ _ Ok (l, M) 12); [exact I|exact L|cbn; lia| |exact K]. cbn [library_primitive].
  arg 0 (VPtr p) A. cbn [cdr]. rewrite (shared_has _ _ _ _ _ _ _ _ _ I E). cbn [ob car]. rewrite (shared_has _ _ _ _ _ _ _ _ _ I F). reflexivity.
Qed.
Lemma m_cddr xs p q x y z : lst P xs [VPtr p] -> M p = Some (x, VPtr q) -> M q = Some (y, z) -> reaches (St (z :: s) e c d h g a) Q -> calls (VPtr 116) xs s e c d h g a Q.
Proof.
  intros A E F K. eapply (c_prim _ Proc _ _ _ Ok (l, M) 13); [exact I|exact L|cbn; lia| |exact K]. cbn [library_primitive].
  arg 0 (VPtr p) A. cbn [cdr]. rewrite (shared_has _ _ _ _ _ _ _ _ _ I E). cbn [ob cdr]. rewrite (shared_has _ _ _ _ _ _ _ _ _ I F). reflexivity.
Qed.
Lemma m_pair xs p x y : lst P xs [VPtr p] -> M p = Some (x, y) -> reaches (St (t_ :: s) e c d h g a) Q -> calls (VPtr 109) xs s e c d h g a Q.
Proof.
  intros A E K. eapply (c_prim _ Proc _ _ _ Ok (l, M) 6); [exact I|exact L|cbn; lia| |exact K]. cbn [library_primitive primitive].
  arg 0 (VPtr p) A. cbn [callee]. rewrite (shared_has _ _ _ _ _ _ _ _ _ I E). reflexivity.
Qed.
Lemma m_not xs x : lst P xs [x] -> reaches (St (make_bool (val_eqb x f_) :: s) e c d h g a) Q -> calls (VPtr 117) xs s e c d h g a Q.
Proof. intros A K. eapply (c_prim _ Proc _ _ _ Ok (l, M) 14); [exact I|exact L|cbn; lia| |exact K]. cbn [library_primitive]. arg 0 x A. reflexivity. Qed.
Lemma m_set_car xs p x y z : lst P xs [VPtr p; z] -> M p = Some (x, y) ->
  (forall h', shared Inv (l, upd M p (z, y)) h' g a P -> reaches (St (z :: s) e c d h' g a) Q) -> calls (VPtr 106) xs s e c d h g a Q.
Proof.
  intros A E K. eapply (c_prim _ Proc _ _ _ Ok (l, M) 3); [exact I|exact L|cbn; lia| |apply K; eapply shared_write; [exact I|exact E]]. cbn [library_primitive primitive].
  arg 0 (VPtr p) A. arg 1 z A. cbn [set_car]. rewrite (shared_has _ _ _ _ _ _ _ _ _ I E). reflexivity.
Qed.
Lemma m_set_cdr xs p x y z : lst P xs [VPtr p; z] -> M p = Some (x, y) ->
  (forall h', shared Inv (l, upd M p (x, z)) h' g a P -> reaches (St (z :: s) e c d h' g a) Q) -> calls (VPtr 107) xs s e c d h g a Q.
Proof.
  intros A E K. eapply (c_prim _ Proc _ _ _ Ok (l, M) 4); [exact I|exact L|cbn; lia| |apply K; eapply shared_write; [exact I|exact E]]. cbn [library_primitive primitive].
  arg 0 (VPtr p) A. arg 1 z A. cbn [set_cdr]. rewrite (shared_has _ _ _ _ _ _ _ _ _ I E). reflexivity.
Qed.
End Call.
End Shared.
