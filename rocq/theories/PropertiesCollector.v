(** Properties C05, C06, C07: the garbage collector.

    A history is a list of cell constructions, copies, destructions, resets,
    allocations and collections, started from the initial collector and
    constrained only by [permitted_all] (what C++ object lifetimes guarantee).
    [w] is the arbitrary word that lies past the pointer set's bitmap (C03). *)
From Coq Require Import NArith List Lia.
From Verif Require Import PointerSet PointerSetTop Collector CollectorProofs CollectorHistory CollectorCheck.
Import ListNotations.
Open Scope N_scope.

(** C05.  Whatever the program can reach stays allocated, at the same place,
    with the same contents; variables keep their values. *)
Theorem C05_reachable_kept : forall w h g,
  permitted_all w (gc_init (Some w)) h -> grun (Some w) (gc_init (Some w)) h = Some g ->
  exists g', collect (Some w) g = Some g' /\
    (forall p, usable w g p -> live w g' p /\ g_info g' p = g_info g p /\
       forall x, owned g p x -> g_cell g' x = g_cell g x) /\
    (forall x, (forall q, live w g q -> ~ owned g q x) -> g_cell g' x = g_cell g x).
Proof. exact collect_keeps. Qed.
Print Assumptions C05_reachable_kept.

(** No cell ever refers to freed memory, at any point of any history, and no
    operation of a permitted history is undefined. *)
Theorem C05_no_dangling : forall w h, permitted_all w (gc_init (Some w)) h ->
  exists g, grun (Some w) (gc_init (Some w)) h = Some g /\
    forall x p, g_cell g x = Some (Some p) -> live w g p.
Proof. exact no_dangling. Qed.
Print Assumptions C05_no_dangling.

(** C06, full statement: after a collection exactly the data the program can
    reach are allocated, and a second collection in a row frees nothing.
    It fails for data that own cells outside their own memory (vectors). *)
Definition C06_statement : Prop := forall w h g,
  permitted_all w (gc_init (Some w)) h -> grun (Some w) (gc_init (Some w)) h = Some g ->
  exists g' g'', collect (Some w) g = Some g' /\ collect (Some w) g' = Some g'' /\
    (forall p, live w g' p <-> usable w g p) /\ (forall p, live w g'' p <-> live w g' p).

Theorem C06_refuted : ~ C06_statement.
Proof.
  intros H. destruct self_vector_leaks as [Hp [g [g1 [Hg [Hu [Hc Hl]]]]]].
  destruct (H 0 self_vector g Hp Hg) as [g' [g'' [H1 [_ [H3 _]]]]].
  rewrite Hc in H1. injection H1 as <-. exact (Hu 0x1008 (proj1 (H3 0x1008) Hl)).
Qed.
Print Assumptions C06_refuted.

(** A vector that contains itself is never freed, however often one collects. *)
Theorem C06_self_vector_refuted : permitted_all 0 (gc_init (Some 0)) self_vector /\
  exists g g', grun (Some 0) (gc_init (Some 0)) self_vector = Some g /\
    (forall p, ~ usable 0 g p) /\ collect (Some 0) g = Some g' /\ live 0 g' 0x1008.
Proof. exact self_vector_leaks. Qed.
Print Assumptions C06_self_vector_refuted.

(** A second collection in a row can free more: the contents of a dead vector. *)
Theorem C06_second_collection_refuted : permitted_all 0 (gc_init (Some 0)) vector_of_pair /\
  exists g g' g'', grun (Some 0) (gc_init (Some 0)) vector_of_pair = Some g /\
    collect (Some 0) g = Some g' /\ live 0 g' 0x2000 /\
    collect (Some 0) g' = Some g'' /\ ~ live 0 g'' 0x2000.
Proof. exact second_collection_frees. Qed.
Print Assumptions C06_second_collection_refuted.

(** The part that holds: as long as every cell a datum owns lies within it. *)
Theorem C06_exact_partial : forall w h g,
  permitted_all w (gc_init (Some w)) h -> grun (Some w) (gc_init (Some w)) h = Some g ->
  g_ext g = [] ->
  exists g' g'', collect (Some w) g = Some g' /\ collect (Some w) g' = Some g'' /\
    (forall p, live w g' p <-> usable w g p) /\ (forall p, live w g'' p <-> live w g' p).
Proof. exact collect_exact_plain. Qed.
Print Assumptions C06_exact_partial.

(** And in every heap: what is freed is exactly what cannot be reached when
    cells outside data (including vector buffers) count as roots; the cells of
    freed data are destroyed. *)
Theorem C06_conservative_partial : forall w h g,
  permitted_all w (gc_init (Some w)) h -> grun (Some w) (gc_init (Some w)) h = Some g ->
  exists g', collect (Some w) g = Some g' /\
    (forall p, live w g' p <-> reach_over g (live w g) p) /\
    (forall p x, live w g p -> ~ live w g' p -> owned g p x -> g_cell g' x = None).
Proof. exact collect_exact. Qed.
Print Assumptions C06_conservative_partial.

(** C07 *)
Theorem C07_registry_exact : forall w h, permitted_all w (gc_init (Some w)) h ->
  exists g, grun (Some w) (gc_init (Some w)) h = Some g /\
    forall x, registered w g x <-> exists p, g_cell g x = Some (Some p).
Proof. exact registry_exact. Qed.
Print Assumptions C07_registry_exact.

(** A permitted history: a cyclic pair and a second pair, one of them garbage,
    and a collection forced in between. *)
Definition C05_history : list gop :=
  [GImm 0x1000; GImm 0x1008; GMake 0x1000 0x1000 40 0x9000;
   GReset Identity Identity 0x1008 0x9000;
   GImm 0x2000; GImm 0x2008; GMake 0x2000 0x2000 40 0x9008;
   GReset Identity Identity 0x2000 0x9000;
   GDtor 0x9000; GCollect; GNull Identity 0x2000].
Example C05_ex : permitted_all 0 (gc_init (Some 0)) C05_history /\
  match grun (Some 0) (gc_init (Some 0)) C05_history with
  | Some g => lives 0 g = [0x1000; 0x2000] /\ g_ext g = [] /\
      match collect (Some 0) g with Some g' => lives 0 g' = [0x2000] | None => False end
  | None => False
  end.
Proof. split; [apply check_ok; vm_compute; reflexivity|vm_compute; auto]. Qed.
