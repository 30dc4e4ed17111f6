(** Property C04: the block allocator never hands out a live chunk twice. *)
From Coq Require Import NArith List.
From Verif Require Import Allocator.
Import ListNotations.
Open Scope N_scope.

(** [l] is the list of chunks handed out and not yet returned. *)
Theorem C04_allocation_is_fresh : forall n, 0 < n -> forall h s l,
  arun n (alloc_init n, []) h = Some (s, l) ->
  let (c, s') := allocate n s in ~ In c l /\ fst c <= as_block s' /\ snd c < n.
Proof. exact allocation_fresh. Qed.
Print Assumptions C04_allocation_is_fresh.

Theorem C04_live_chunks_distinct : forall n, 0 < n -> forall h s l,
  arun n (alloc_init n, []) h = Some (s, l) -> NoDup l.
Proof. exact live_distinct. Qed.
Print Assumptions C04_live_chunks_distinct.

(** Reuse is last-in first-out, whatever is written into live chunks between. *)
Theorem C04_reuse_lifo : forall n h s l c1 c2, In c1 l -> In c2 l -> c1 <> c2 ->
  Forall is_write h -> forall s1 l1,
  arun n (s, l) (Free c1 :: Free c2 :: h) = Some (s1, l1) ->
  exists s2, allocate n s1 = (c2, s2) /\ fst (allocate n s2) = c1.
Proof. exact lifo_two. Qed.
Print Assumptions C04_reuse_lifo.

(** A further block is requested only when no chunk is free. *)
Theorem C04_new_block_only_when_full : forall n, 0 < n -> forall h s l,
  arun n (alloc_init n, []) h = Some (s, l) ->
  forall c s', allocate n s = (c, s') -> as_block s' <> as_block s ->
  forall b k, b <= as_block s -> k < n -> In (b, k) l.
Proof. exact new_block_only_when_full. Qed.
Print Assumptions C04_new_block_only_when_full.

Example C04_ex : 
  match arun 2 (alloc_init 2, []) [Alloc; Alloc; Alloc; Free (0, 1); Free (1, 1); Write (0, 0) (Some (0, 0)); Alloc] with
  | Some (s, l) => (l, as_block s)
  | None => ([], 0)
  end = ([(1, 1); (0, 0)], 1).
Proof. vm_compute. reflexivity. Qed.
