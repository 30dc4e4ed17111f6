(** Properties C02 and C03: the pointer set used by the collector.

    [w] is the value of the word just past an occupancy array, which the code
    reads (see C03); C02 holds whatever that word is. *)
From Coq Require Import NArith List Sorted.
From Verif Require Import PointerSet PointerSetProofs PointerSetTop.
Import ListNotations.
Open Scope N_scope.

(** After any allowed history, membership is "inserted and not erased since",
    and iterating lists exactly the members, in increasing order, each once. *)
Theorem C02_membership_and_iteration : forall w h, allowed_all empty_set h ->
  exists s l, ps_run (Some w) h = Some s /\
    (forall a, addr a -> ps_contains (Some w) s a = Some (members h a)) /\
    ps_elements (Some w) s = Some l /\ StronglySorted N.lt l /\
    (forall a, In a l <-> members h a = true) /\
    N.of_nat (length l) = ps_size s.
Proof. exact history_ok. Qed.
Print Assumptions C02_membership_and_iteration.

(** lower_bound is the least member at or above; [--] from there (also from
    end()) is the greatest member below. *)
Theorem C02_lower_bound_and_predecessor : forall w h, allowed_all empty_set h -> forall a, addr a ->
  exists s it it', ps_run (Some w) h = Some s /\ ps_lower (Some w) s a = Some it /\
    is_least_ge (members h) a (ps_deref (Some w) it) /\
    ps_prev (Some w) s it = Some it' /\ is_greatest_lt (members h) a (ps_deref (Some w) it').
Proof. exact history_lower. Qed.
Print Assumptions C02_lower_bound_and_predecessor.

(** An iterator at [a] survives any further allowed history (even the erasure
    of [a]): [++] leads to the least member above [a]. *)
Theorem C02_iterator_stability : forall w h1 h2, allowed_all empty_set (h1 ++ h2) ->
  forall a, members h1 a = true ->
  exists s1 s2 it it', ps_run (Some w) h1 = Some s1 /\ ps_run (Some w) (h1 ++ h2) = Some s2 /\
    ps_lower (Some w) s1 a = Some it /\ ps_deref (Some w) it = Some a /\
    ps_next (Some w) s2 it = Some it' /\
    is_least_ge (members (h1 ++ h2)) (a + 8) (ps_deref (Some w) it').
Proof. exact history_next. Qed.
Print Assumptions C02_iterator_stability.

Definition ex_history : list ps_op :=
  [Insert 0x7f0000001000; Insert 0x10; Insert 0x7f0000001008; Insert 0x7fffffff8; Erase 0x7f0000001000; Insert 0x8].
Example C02_ex_allowed : allowed_all empty_set ex_history.
Proof. cbn. unfold addr. repeat split; reflexivity. Qed.
Example C02_ex_elements :
  match ps_run (Some 0xDEAD) ex_history with
  | Some s => ps_elements (Some 0xDEAD) s
  | None => None
  end = Some [0x8; 0x10; 0x7fffffff8; 0x7f0000001008].
Proof. vm_compute. reflexivity. Qed.

(** C03 is false: begin() on a set that never had an element, and [++] past an
    element whose address has bits 19..34 all set, read occupancy[Q]. *)
Theorem C03_refuted :
  (exists s, ps_run None [] = Some s /\ ps_begin None s = None) /\
  (exists h s it, allowed_all empty_set h /\ ps_run None h = Some s /\
     ps_begin None s = Some it /\ ps_deref None it = Some 0x7fff80000 /\ ps_next None s it = None).
Proof.
  split.
  - eexists. split; [reflexivity|]. vm_compute. reflexivity.
  - exists [Insert 0x7fff80000]. eexists _, _.
    split; [cbn; unfold addr; repeat split; reflexivity|].
    split; [reflexivity|]. split; [vm_compute; reflexivity|]. split; vm_compute; reflexivity.
Qed.
Print Assumptions C03_refuted.

(** Full claim: every operation stays inside the arrays.  What holds: the
    mutators and [contains] do, for every allowed history; and by C02 the
    iteration functions never fail in any other way than by that one word. *)
Theorem C03_mutators_partial : forall h, allowed_all empty_set h ->
  exists s, ps_run None h = Some s /\
    forall a, addr a -> ps_contains None s a = Some (members h a).
Proof. exact mutators_defined. Qed.
Print Assumptions C03_mutators_partial.
