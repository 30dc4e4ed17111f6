(** Model of src/kernel/collector.cpp, the registering part of
    include/meevax/kernel/object.hpp and [make] of
    include/meevax/kernel/collector.hpp.

    Memory is modelled by the cells (C++ [object]s) constructed in it and by the
    heap data ([pair] subobjects of [binder]s).  Both registries, [objects] and
    [data], are the concrete three-level pointer sets of PointerSet.v.

    Simplifications.  A cell's content is [Some p] for a pointer to the datum at
    [p] and [None] for null and the immediate types (NanBox.v shows the bits
    tell these apart).  The [cleared] flag of collector.cpp:40, which disables
    the registry during process exit, is constantly false.  Deleting a datum
    runs the destructors of the cells inside the binder and of the cells in
    memory the binder owns, such as the buffer of a std::vector<object>; the
    latter are listed in [g_ext]; other effects of destructors (closing files)
    are not modelled.  A failed assert, a null dereference and a dangling access
    are all reported as [None]. *)
From Coq Require Import NArith List Bool.
From Verif Require Import PointerSet.
Import ListNotations.
Open Scope N_scope.

Record gc := {
  g_objects : pset;                   (* collector.cpp:38 *)
  g_data : pset;                      (* collector.cpp:36 *)
  g_cell : N -> option (option N);    (* cells; None: no object constructed there *)
  g_info : N -> N * N;                (* pair.hpp:26-28: base and size of the datum at this address *)
  g_ext : list (N * N);               (* (cell, datum): cell outside the datum destroyed with it *)
  g_size : N;                         (* collector.cpp:32 *)
  g_capacity : N                      (* collector.cpp:34 *)
}.

Definition with_objects (g : gc) (o : pset) : gc :=
  {| g_objects := o; g_data := g_data g; g_cell := g_cell g; g_info := g_info g; g_ext := g_ext g;
     g_size := g_size g; g_capacity := g_capacity g |}.
Definition with_cell (g : gc) (x : N) (c : option (option N)) : gc :=
  {| g_objects := g_objects g; g_data := g_data g; g_cell := upd (g_cell g) x c; g_info := g_info g;
     g_ext := g_ext g; g_size := g_size g; g_capacity := g_capacity g |}.

Section Collector.
  Variable oob : option N.            (* the word past an occupancy array, see PointerSet.v *)

  Definition gc_init : gc :=
    {| g_objects := ps_new oob; g_data := ps_new oob; g_cell := fun _ => None; g_info := fun _ => (0, 0);
       g_ext := []; g_size := 0; g_capacity := 16 * 2^20 |}.

  (** ** Cells: object.hpp and collector.cpp:42-96 *)

  (** collector.cpp:86-96 with their asserts *)
  Definition obj_insert (g : gc) (x : N) : option gc :=
    do b <- ps_contains oob (g_objects g) x;
    if b then None else do o <- ps_insert oob (g_objects g) x; Some (with_objects g o).
  Definition obj_erase (g : gc) (x : N) : option gc :=
    do b <- ps_contains oob (g_objects g) x;
    if b then do o <- ps_erase oob (g_objects g) x; Some (with_objects g o) else None.

  (** operator bool of a constructed cell *)
  Definition truthy (g : gc) (x : N) : option bool :=
    match g_cell g x with None => None | Some (Some _) => Some true | Some None => Some false end.

  (** collector.cpp:42-43 and object.hpp:60-65: null and immediates *)
  Definition ctor_immediate (g : gc) (x : N) : option gc := Some (with_cell g x (Some None)).
  (** collector.cpp:54-59 *)
  Definition ctor_pair (g : gc) (x p : N) : option gc := obj_insert (with_cell g x (Some (Some p))) x.
  (** collector.cpp:45-52 *)
  Definition ctor_copy (g : gc) (x y : N) : option gc :=
    do c <- g_cell g y;
    let g' := with_cell g x (Some c) in
    do t <- truthy g' x;
    if t then obj_insert g' x else Some g'.
  (** collector.cpp:61-67 *)
  Definition dtor (g : gc) (x : N) : option gc :=
    do t <- truthy g x;
    do g' <- (if t then obj_erase g x else Some g);
    Some (with_cell g' x None).

  (** The template arguments of reset: std::identity tests the cell; truthy and
      falsy (object.hpp:32-48) only assert. *)
  Inductive cond := Identity | Truthy | Falsy.
  Definition test (k : cond) (g : gc) (x : N) : option bool :=
    do t <- truthy g x;
    match k with
    | Identity => Some t
    | Truthy => if t then Some true else None
    | Falsy => if t then None else Some false
    end.
  (** object.hpp:77-98 *)
  Definition reset_copy (pre post : cond) (g : gc) (x y : N) : option gc :=
    do a <- test pre g x;
    do c <- g_cell g y;
    let g' := with_cell g x (Some c) in
    do b <- test post g' x;
    if a then (if b then Some g' else obj_erase g' x)
    else (if b then obj_insert g' x else Some g').
  (** object.hpp:100-112 *)
  Definition reset_null (pre : cond) (g : gc) (x : N) : option gc :=
    do a <- test pre g x;
    let g' := with_cell g x (Some None) in
    if a then obj_erase g' x else Some g'.

  (** ** Collection *)

  (** collector.cpp:230-233: unsigned subtraction *)
  Definition datum_contains (g : gc) (x p : N) : bool :=
    let (base, size) := g_info g p in (x + 2^64 - base) mod 2^64 <? size.

  (** collector.cpp:210-236 *)
  Definition is_root (g : gc) (x : N) : option bool :=
    do it <- ps_lower oob (g_data g) x;
    if match ps_deref oob it with Some p => datum_contains g x p | None => false end then Some false
    else
      do it' <- ps_prev oob (g_data g) it;
      Some (negb match ps_deref oob it' with Some p => datum_contains g x p | None => false end).

  (** The values an iterator pair ranges over (std::for_each on a set that does
      not change meanwhile). *)
  Fixpoint ps_range (fuel : nat) (s : pset) (it last : pset_iter) : option (list N) :=
    match fuel with
    | O => None
    | S fuel' =>
      if ps_eq oob it last then Some []
      else
        do a <- ps_deref oob it;
        do it' <- ps_next oob s it;
        do l <- ps_range fuel' s it' last;
        Some (a :: l)
    end.

  (** State of marking: new_data, data, stack (top first), size. *)
  Record marking := { mk_new : pset; mk_data : pset; mk_stack : list N; mk_size : N }.

  (** collector.cpp:161-172 *)
  Definition mark (g : gc) (m : marking) (x : N) : option marking :=
    match g_cell g x with
    | Some (Some p) =>
      do b <- ps_contains oob (mk_new m) p;
      if b then Some m
      else
        do new <- ps_insert oob (mk_new m) p;
        do b' <- ps_contains oob (mk_data m) p;
        if b' then
          do data <- ps_erase oob (mk_data m) p;
          Some {| mk_new := new; mk_data := data; mk_stack := p :: mk_stack m; mk_size := mk_size m |}
        else None
    | _ => None
    end.

  Fixpoint mark_all (g : gc) (m : marking) (xs : list N) : option marking :=
    match xs with [] => Some m | x :: xs' => do m' <- mark g m x; mark_all g m' xs' end.

  (** collector.cpp:176-187 *)
  Fixpoint mark_loop (fuel : nat) (g : gc) (m : marking) : option marking :=
    match fuel with
    | O => None
    | S fuel' =>
      match mk_stack m with
      | [] => Some m
      | p :: stack =>
        let (base, size) := g_info g p in
        let m := {| mk_new := mk_new m; mk_data := mk_data m; mk_stack := stack; mk_size := mk_size m + size |} in
        do first <- ps_lower oob (g_objects g) base;
        do last <- ps_lower oob (g_objects g) (base + size);
        do xs <- ps_range (S (N.to_nat (ps_size (g_objects g)))) (g_objects g) first last;
        do m' <- mark_all g m xs;
        mark_loop fuel' g m'
      end
    end.

  (** collector.cpp:157-188 *)
  Fixpoint mark_roots (g : gc) (m : marking) (roots : list N) : option marking :=
    match roots with
    | [] => Some m
    | r :: roots' =>
      do m1 <- mark g m r;
      do m2 <- mark_loop (S (N.to_nat (ps_size (g_data g)))) g m1;
      mark_roots g m2 roots'
    end.

  (** collector.cpp:145-151 *)
  Fixpoint find_roots (g : gc) (xs : list N) : option (list N) :=
    match xs with
    | [] => Some []
    | x :: xs' =>
      do b <- is_root g x;
      do l <- find_roots g xs';
      Some (if b then x :: l else l)
    end.

  (** [delete datum]: the cells inside the binder and those it owns elsewhere *)
  Definition inner_slots (g : gc) (p : N) : list N :=
    let (base, size) := g_info g p in map (fun i => base + 8 * N.of_nat i) (seq 0 (N.to_nat (size / 8))).
  Definition outer_cells (g : gc) (p : N) : list N :=
    map fst (filter (fun e => snd e =? p) (g_ext g)).
  Fixpoint destroy_all (g : gc) (xs : list N) : option gc :=
    match xs with
    | [] => Some g
    | x :: xs' =>
      match g_cell g x with
      | None => destroy_all g xs'           (* not a cell: some other member *)
      | Some _ => do g' <- dtor g x; destroy_all g' xs'
      end
    end.
  Definition delete (g : gc) (p : N) : option gc :=
    do g' <- destroy_all g (inner_slots g p ++ outer_cells g p);
    Some {| g_objects := g_objects g'; g_data := g_data g'; g_cell := g_cell g'; g_info := g_info g';
            g_ext := filter (fun e => negb (snd e =? p)) (g_ext g'); g_size := g_size g'; g_capacity := g_capacity g' |}.
  Fixpoint delete_all (g : gc) (ps : list N) : option gc :=
    match ps with [] => Some g | p :: ps' => do g' <- delete g p; delete_all g' ps' end.

  (** collector.cpp:131-198 *)
  Definition collect (g : gc) : option gc :=
    do xs <- ps_elements oob (g_objects g);
    do roots <- find_roots g xs;
    do m <- mark_roots g {| mk_new := ps_new oob; mk_data := g_data g; mk_stack := []; mk_size := 0 |} roots;
    do garbage <- ps_elements oob (mk_data m);
    do g' <- delete_all g garbage;
    Some {| g_objects := g_objects g'; g_data := mk_new m; g_cell := g_cell g'; g_info := g_info g'; g_ext := g_ext g';
            g_size := mk_size m; g_capacity := N.max (g_capacity g) (mk_size m + mk_size m / 2) |}.

  (** collector.cpp:238-244 *)
  Definition request (g : gc) (n : N) : option gc :=
    let g' := {| g_objects := g_objects g; g_data := g_data g; g_cell := g_cell g; g_info := g_info g;
                 g_ext := g_ext g; g_size := g_size g + n; g_capacity := g_capacity g |} in
    if g_capacity g' <? g_size g' then collect g' else Some g'.

  (** collector.hpp:181-185 after the binder has been constructed at
      [base, base+size) with its pair subobject at [p]: record base and size
      (hpp:87-88), insert(datum), and the returned object in cell [r]. *)
  Definition make_datum (g : gc) (p base size r : N) : option gc :=
    do d <- ps_insert oob (g_data g) p;
    ctor_pair {| g_objects := g_objects g; g_data := d; g_cell := g_cell g; g_info := upd (g_info g) p (base, size);
                 g_ext := g_ext g; g_size := g_size g; g_capacity := g_capacity g |} r p.

  (** The binder takes ownership of a cell elsewhere (e.g. a vector buffer). *)
  Definition adopt (g : gc) (x p : N) : option gc :=
    Some {| g_objects := g_objects g; g_data := g_data g; g_cell := g_cell g; g_info := g_info g;
            g_ext := (x, p) :: g_ext g; g_size := g_size g; g_capacity := g_capacity g |}.

  (** ** Histories *)
  Inductive gop :=
  | GImm (x : N) | GCopy (x y : N) | GDtor (x : N)
  | GReset (pre post : cond) (x y : N) | GNull (pre : cond) (x : N)
  | GMake (p base size r : N) | GAdopt (x p : N) | GRequest (n : N) | GCollect.

  Definition gstep (g : gc) (o : gop) : option gc :=
    match o with
    | GImm x => ctor_immediate g x
    | GCopy x y => ctor_copy g x y
    | GDtor x => dtor g x
    | GReset pre post x y => reset_copy pre post g x y
    | GNull pre x => reset_null pre g x
    | GMake p base size r => make_datum g p base size r
    | GAdopt x p => adopt g x p
    | GRequest n => request g n
    | GCollect => collect g
    end.
  Fixpoint grun (g : gc) (h : list gop) : option gc :=
    match h with [] => Some g | o :: h' => do g' <- gstep g o; grun g' h' end.
End Collector.
