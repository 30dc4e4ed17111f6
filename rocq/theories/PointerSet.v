(** Model of include/meevax/memory/pointer_set.hpp.

    The C++ template [pointer_set<T, E, Es...>] is a radix tree: an inner node
    has an array of 2^E pointers to subsets plus an occupancy bit map; the
    innermost level is a plain bit map.  The collector instantiates it as
    [pointer_set<T const*, 15, 16, 16>] (src/kernel/collector.cpp:29-30), i.e.
    two inner levels over one bit map, with 3 address bits compressed away.

    Arrays are functions [N -> A] that are only read through bounds-checked
    accessors; an access outside the array yields [None] ("undefined
    behaviour").  One particular out-of-bounds word, [occupancy[Q]], is really
    read by the code (see [seek_up]); the parameter [oob] says what happens
    there: [None] reports it as undefined behaviour, [Some w] pretends that the
    machine reads the word [w].

    Iterators are positions; operations on them take the live set (in C++ the
    iterator holds a pointer to it).  std::size_t arithmetic is unbounded
    except for the decrement of 0, which wraps. *)
From Coq Require Import NArith List Bool Lia.
Import ListNotations.
Open Scope N_scope.

(** Sequencing with "undefined behaviour" ([None]) as failure. *)
Definition bind {A B} (o : option A) (f : A -> option B) : option B :=
  match o with Some a => f a | None => None end.
Notation "'do' x <- e ; f" := (bind e (fun x => f)) (at level 200, x name, e at level 100, f at level 200).

(** [--x] on std::size_t: 0 wraps to 2^64 - 1. *)
Definition pred64 (x : N) : N := if x =? 0 then 2^64 - 1 else x - 1.

Definition upd {A} (f : N -> A) (i : N) (a : A) : N -> A := fun j => if j =? i then a else f j.

(** std::countr_zero on a 64-bit word. *)
Fixpoint pos_ctz (p : positive) : N :=
  match p with xO p' => N.succ (pos_ctz p') | _ => 0 end.
Definition countr_zero (w : N) : N := match w with N0 => 64 | Npos p => pos_ctz p end.
(** 63 - std::countl_zero(w) for a non-zero 64-bit word is [N.log2 w]. *)

(** [~0_u64 << r] and [~0_u64 >> (63 - r)]. *)
Definition mask_ge (r : N) : N := N.land (N.shiftl (N.ones 64) r) (N.ones 64).
Definition mask_le (r : N) : N := N.shiftr (N.ones 64) (63 - r).

(** ** Scanning a word array (shared by all levels)

    [Q] is the number of words and [rd] the bounds-checked read. *)
Section Scan.
  Variable Q : N.
  Variable rd : N -> option N.

  (** [while (++q < Q) if (word = data[q]; word) return q * 64 + countr_zero(word);]
      pointer_set.hpp:132-138 and 404-412.  [Some None] is loop exit. *)
  Fixpoint words_up (fuel : nat) (q : N) : option (option N) :=
    match fuel with
    | O => None
    | S fuel' =>
      let q := q + 1 in
      if q <? Q then
        do w <- rd q;
        if w =? 0 then words_up fuel' q else Some (Some (q * 64 + countr_zero w))
      else Some None
    end.

  (** pointer_set.hpp:122-142 (lambda seek) and 391-418; [limit] is N. *)
  Definition seek_up (limit i : N) : option N :=
    let q := i / 64 in let r := i mod 64 in
    do w <- rd q;
    let w := N.land w (mask_ge r) in
    if w =? 0 then
      do o <- words_up (S (N.to_nat Q)) q;
      Some (match o with Some k => k | None => limit end)
    else Some (q * 64 + countr_zero w).

  (** [while (--q < Q) ...] pointer_set.hpp:169-175 and 433-441.  The counter
      wraps after 0, which ends the loop; recursion is on q itself. *)
  Fixpoint words_down (q : nat) : option (option N) :=
    match q with
    | O => Some None
    | S q' =>
      let qn := N.of_nat q' in
      if qn <? Q then
        do w <- rd qn;
        if w =? 0 then words_down q' else Some (Some (qn * 64 + N.log2 w))
      else Some None
    end.

  (** pointer_set.hpp:159-179 (lambda seek) and 420-447. *)
  Definition seek_down (limit i : N) : option N :=
    let q := i / 64 in let r := i mod 64 in
    do w <- rd q;
    let w := N.land w (mask_le r) in
    if w =? 0 then
      do o <- words_down (N.to_nat q);
      Some (match o with Some k => k | None => limit end)
    else Some (q * 64 + N.log2 w).
End Scan.

(** ** The operations a subset offers to the level above it

    [S] is the set, [I] its iterator.  [deref] combines operator bool and
    operator *: [None] is a falsy iterator. *)
Record set_ops (S I : Type) := {
  so_new    : S;
  so_insert : S -> N -> option S;
  so_erase  : S -> N -> option S;
  so_contains : S -> N -> option bool;
  so_empty  : S -> bool;
  so_begin  : S -> option I;
  so_last   : S -> option I;          (* the constructor const_iterator(p) *)
  so_lower  : S -> N -> option I;
  so_next   : S -> I -> option I;
  so_prev   : S -> I -> option I;
  so_end    : I;
  so_deref  : I -> option N;
  so_eq     : I -> I -> bool
}.
Arguments so_new {S I}. Arguments so_insert {S I}. Arguments so_erase {S I}.
Arguments so_contains {S I}. Arguments so_empty {S I}. Arguments so_begin {S I}.
Arguments so_last {S I}. Arguments so_lower {S I}. Arguments so_next {S I}.
Arguments so_prev {S I}. Arguments so_end {S I}. Arguments so_deref {S I}. Arguments so_eq {S I}.

(** ** Innermost level: pointer_set<T, E>, hpp:362-558, with T = uintptr_t *)
Section Leaf.
  Variable E : N.                         (* bits; N = 2^E, Q = N/64 *)
  Definition leaf_N : N := 2^E.
  Definition leaf_Q : N := leaf_N / 64.

  (** hpp:371-373 *)
  Record leaf := { lf_n : N; lf_data : N -> N }.
  Definition leaf_new : leaf := {| lf_n := 0; lf_data := fun _ => 0 |}.

  Definition leaf_rd (s : leaf) (q : N) : option N :=
    if q <? leaf_Q then Some (lf_data s q) else None.

  (** hpp:506-510 index: [x >> 0 & (2^E - 1)] *)
  Definition leaf_index (x : N) : N := N.land x (N.ones E).

  (** hpp:512-518 *)
  Definition leaf_insert (s : leaf) (x : N) : option leaf :=
    let q := leaf_index x / 64 in let r := leaf_index x mod 64 in
    do w <- leaf_rd s q;
    Some {| lf_n := lf_n s + 1; lf_data := upd (lf_data s) q (N.lor w (N.shiftl 1 r)) |}.

  (** hpp:520-526 *)
  Definition leaf_erase (s : leaf) (x : N) : option leaf :=
    let q := leaf_index x / 64 in let r := leaf_index x mod 64 in
    do w <- leaf_rd s q;
    Some {| lf_n := pred64 (lf_n s); lf_data := upd (lf_data s) q (N.ldiff w (N.shiftl 1 r)) |}.

  (** hpp:528-532 *)
  Definition leaf_contains (s : leaf) (x : N) : option bool :=
    let q := leaf_index x / 64 in let r := leaf_index x mod 64 in
    do w <- leaf_rd s q;
    Some (negb (N.land w (N.shiftl 1 r) =? 0)).

  (** hpp:554-557 *)
  Definition leaf_empty (s : leaf) : bool := lf_n s =? 0.

  (** hpp:375-389: the iterator is just the position i (the pointer p is the
      live set, or null in a default constructed iterator, which the level
      above represents as "no sub iterator"). *)
  Definition leaf_iter := N.

  (** hpp:391-418 *)
  Definition leaf_inc (s : leaf) (i : N) : option leaf_iter :=
    if i <? leaf_N then seek_up leaf_Q (leaf_rd s) leaf_N i else Some leaf_N.
  (** hpp:420-447 *)
  Definition leaf_dec (s : leaf) (i : N) : option leaf_iter :=
    if i <? leaf_N then seek_down leaf_Q (leaf_rd s) leaf_N i else Some leaf_N.

  Definition leaf_begin (s : leaf) : option leaf_iter := leaf_inc s 0.            (* hpp:534-537, 451-456 *)
  Definition leaf_last (s : leaf) : option leaf_iter := leaf_dec s (leaf_N - 1).  (* hpp:463-468 *)
  Definition leaf_lower (s : leaf) (x : N) : option leaf_iter := leaf_inc s (leaf_index x). (* hpp:544-547 *)
  Definition leaf_next (s : leaf) (i : leaf_iter) : option leaf_iter := leaf_inc s (i + 1). (* hpp:470-475 *)
  Definition leaf_prev (s : leaf) (i : leaf_iter) : option leaf_iter := leaf_dec s (pred64 i). (* hpp:477-482 *)
  Definition leaf_deref (i : leaf_iter) : option N := if i <? leaf_N then Some i else None. (* hpp:484-493 *)
  (** hpp:495-498 *)
  Definition leaf_eq (a b : leaf_iter) : bool :=
    if b <? leaf_N then a =? b else negb (a <? leaf_N).

  Definition leaf_ops : set_ops leaf leaf_iter := {|
    so_new := leaf_new; so_insert := leaf_insert; so_erase := leaf_erase;
    so_contains := leaf_contains; so_empty := leaf_empty; so_begin := leaf_begin;
    so_last := leaf_last; so_lower := leaf_lower; so_next := leaf_next;
    so_prev := leaf_prev; so_end := leaf_N; so_deref := leaf_deref; so_eq := leaf_eq |}.
End Leaf.

(** ** Inner level: pointer_set<T, E, Es...>, hpp:40-360

    [NN] is the template's N, [M] is 2^(Es + ...).  The compression shift of
    the outermost level is applied separately, see [top] below. *)
Section Node.
  Context {S I : Type}.
  Variable sub : set_ops S I.
  Variable oob : option N.       (* the word read at occupancy[Q] *)
  Variable sub_null_ok : bool.   (* is [--] on a default constructed sub iterator defined? *)
  Variables NN M : N.

  Definition node_Q : N := (NN + 63) / 64.   (* hpp:49 *)

  (** hpp:55-62 *)
  Record node := {
    nd_data : N -> option S;
    nd_occ  : N -> N;
    nd_n    : N;
    nd_imin : N;
    nd_imax : N
  }.
  Definition node_new : node :=
    {| nd_data := fun _ => None; nd_occ := fun _ => 0; nd_n := 0; nd_imin := NN; nd_imax := 0 |}.

  Definition rd_data (s : node) (i : N) : option (option S) :=
    if i <? NN then Some (nd_data s i) else None.
  (** Reading one past the end of [occupancy] gives [oob]. *)
  Definition rd_occ (s : node) (q : N) : option N :=
    if q <? node_Q then Some (nd_occ s q) else if q =? node_Q then oob else None.

  (** hpp:64-80.  [it_sub = None] is a default constructed sub iterator (its
      pointer is null); [Some (k, b)] is a sub iterator into [data[k]]. *)
  Record node_iter := { it_i : N; it_sub : option (N * I) }.

  (** hpp:331-334, 192-208: the end iterator / invalidate() *)
  Definition node_end : node_iter := {| it_i := NN; it_sub := None |}.

  (** hpp:144-152: the loop of increment_unless_truthy.  [i = seek(i)] has been
      done by the caller. *)
  Fixpoint inc_loop (fuel : nat) (s : node) (i : N) : option node_iter :=
    match fuel with
    | O => None
    | Datatypes.S fuel' =>
      if i <=? nd_imax s then
        do d <- rd_data s i;
        match d with
        | Some t =>
          do b <- so_begin sub t;
          match so_deref sub b with
          | Some _ => Some {| it_i := i; it_sub := Some (i, b) |}
          | None => do i' <- seek_up node_Q (rd_occ s) NN (i + 1); inc_loop fuel' s i'
          end
        | None => do i' <- seek_up node_Q (rd_occ s) NN (i + 1); inc_loop fuel' s i'
        end
      else Some node_end
    end.

  (** hpp:118-153 *)
  Definition node_inc (s : node) (i : N) : option node_iter :=
    do i' <- seek_up node_Q (rd_occ s) NN i; inc_loop (Datatypes.S (N.to_nat NN)) s i'.

  (** hpp:181: unsigned [i - i_min < N - i_min] *)
  Definition in_window (s : node) (i : N) : bool := (nd_imin s <=? i) && (i <? NN).

  (** hpp:181-189 *)
  Fixpoint dec_loop (fuel : nat) (s : node) (i : N) : option node_iter :=
    match fuel with
    | O => None
    | Datatypes.S fuel' =>
      if in_window s i then
        do d <- rd_data s i;
        match d with
        | Some t =>
          do b <- so_last sub t;
          match so_deref sub b with
          | Some _ => Some {| it_i := i; it_sub := Some (i, b) |}
          | None => do i' <- seek_down node_Q (rd_occ s) NN (pred64 i); dec_loop fuel' s i'
          end
        | None => do i' <- seek_down node_Q (rd_occ s) NN (pred64 i); dec_loop fuel' s i'
        end
      else Some node_end
    end.

  (** hpp:155-190 *)
  Definition node_dec (s : node) (i : N) : option node_iter :=
    do i' <- seek_down node_Q (rd_occ s) NN (N.min i (NN - 1));
    dec_loop (Datatypes.S (N.to_nat NN)) s i'.

  (** hpp:98-104 and 326-329 *)
  Definition node_begin (s : node) : option node_iter := node_inc s (nd_imin s).
  (** hpp:111-116 *)
  Definition node_last (s : node) : option node_iter := node_dec s (nd_imax s).

  (** hpp:261-274 split, without the compression shift.  The upper mask only
      removes bits that are zero for values below NN * M. *)
  Definition node_hi (x : N) : N := x / M.
  Definition node_lo (x : N) : N := x mod M.

  (** hpp:84-96 and 336-340 *)
  Definition node_lower (s : node) (x : N) : option node_iter :=
    let i := node_hi x in
    do d <- rd_data s i;
    match d with
    | None => node_inc s (i + 1)
    | Some t =>
      do b <- so_lower sub t (node_lo x);
      match so_deref sub b with
      | Some _ => Some {| it_i := i; it_sub := Some (i, b) |}
      | None => node_inc s (i + 1)
      end
    end.

  (** hpp:210-219.  [++sub] on a default constructed sub iterator dereferences
      a null pointer. *)
  Definition node_next (s : node) (it : node_iter) : option node_iter :=
    match it_sub it with
    | None => None
    | Some (k, b) =>
      do d <- rd_data s k;
      match d with
      | None => None
      | Some t =>
        do b' <- so_next sub t b;
        match so_deref sub b' with
        | Some _ => Some {| it_i := it_i it; it_sub := Some (k, b') |}
        | None => node_inc s (it_i it + 1)
        end
      end
    end.

  (** hpp:221-229.  [p] is non-null here.  [--sub] on a default constructed sub
      iterator returns it unchanged if the sub level is an inner one (hpp:223
      tests p first); the innermost level has no such test and dereferences the
      null pointer (hpp:477-482, 426): [sub_null_ok = false]. *)
  Definition node_prev (s : node) (it : node_iter) : option node_iter :=
    match it_sub it with
    | None =>
      if sub_null_ok then
        let i := pred64 (it_i it) in
        if i <? NN then node_dec s i else Some {| it_i := i; it_sub := None |}
      else None
    | Some (k, b) =>
      do d <- rd_data s k;
      match d with
      | None => None
      | Some t =>
        do b' <- so_prev sub t b;
        match so_deref sub b' with
        | Some _ => Some {| it_i := it_i it; it_sub := Some (k, b') |}
        | None =>
          let i := pred64 (it_i it) in
          if i <? NN then node_dec s i else Some {| it_i := i; it_sub := Some (k, b') |}
        end
      end
    end.

  (** hpp:231-240: [(i << (Es + ...)) | *sub]; the two parts do not overlap. *)
  Definition node_deref (it : node_iter) : option N :=
    if it_i it <? NN then
      match it_sub it with
      | Some (_, b) => match so_deref sub b with Some j => Some (it_i it * M + j) | None => None end
      | None => None
      end
    else None.

  (** hpp:242-245 *)
  Definition node_eq (a b : node_iter) : bool :=
    if it_i b <? NN then
      (it_i a =? it_i b) &&
      match it_sub a, it_sub b with
      | Some (_, x), Some (_, y) => so_eq sub x y
      | None, None => true
      | Some (_, x), None => match so_deref sub x with Some _ => false | None => true end
      | None, Some (_, y) => match so_deref sub y with Some _ => false | None => true end
      end
    else negb (it_i a <? NN).

  (** hpp:276-300 *)
  Definition node_insert (s : node) (x : N) : option node :=
    let i := node_hi x in let j := node_lo x in
    do d <- rd_data s i;
    let '(t, imin, imax) :=
      match d with
      | Some t => (t, nd_imin s, nd_imax s)
      | None => (so_new sub, N.min (nd_imin s) i, N.max (nd_imax s) i)
      end in
    let occ := if so_empty sub t
               then upd (nd_occ s) (i / 64) (N.lor (nd_occ s (i / 64)) (N.shiftl 1 (i mod 64)))
               else nd_occ s in
    do t' <- so_insert sub t j;
    Some {| nd_data := upd (nd_data s) i (Some t'); nd_occ := occ; nd_n := nd_n s + 1;
            nd_imin := imin; nd_imax := imax |}.

  (** hpp:302-318 *)
  Definition node_erase (s : node) (x : N) : option node :=
    let i := node_hi x in let j := node_lo x in
    do d <- rd_data s i;
    match d with
    | None => None                      (* null dereference *)
    | Some t =>
      do t' <- so_erase sub t j;
      let occ := if so_empty sub t'
                 then upd (nd_occ s) (i / 64) (N.ldiff (nd_occ s (i / 64)) (N.shiftl 1 (i mod 64)))
                 else nd_occ s in
      Some {| nd_data := upd (nd_data s) i (Some t'); nd_occ := occ; nd_n := pred64 (nd_n s);
              nd_imin := nd_imin s; nd_imax := nd_imax s |}
    end.

  (** hpp:320-324 *)
  Definition node_contains (s : node) (x : N) : option bool :=
    do d <- rd_data s (node_hi x);
    match d with
    | None => Some false
    | Some t => so_contains sub t (node_lo x)
    end.

  (** hpp:342-350 *)
  Definition node_empty (s : node) : bool := nd_n s =? 0.

  Definition node_ops : set_ops node node_iter := {|
    so_new := node_new; so_insert := node_insert; so_erase := node_erase;
    so_contains := node_contains; so_empty := node_empty; so_begin := node_begin;
    so_last := node_last; so_lower := node_lower; so_next := node_next;
    so_prev := node_prev; so_end := node_end; so_deref := node_deref; so_eq := node_eq |}.
End Node.

Arguments node S : clear implicits.
Arguments node_iter I : clear implicits.

(** ** The instance used by the collector, collector.cpp:29-30

    Outermost: T is a pointer to an 8-aligned object, so 3 bits are compressed
    (hpp:32-33) and N = 2^(15-3) (hpp:47); middle: E = 16, N = 65536; innermost:
    E = 16.  A stored address [a] becomes the index [a >> 3] (hpp:263). *)
Definition mid_ops (oob : option N) := node_ops (leaf_ops 16) oob false (2^16) (2^16).
Definition top_ops (oob : option N) := node_ops (mid_ops oob) oob true (2^12) (2^32).

Definition pset := node (node leaf).
Definition pset_iter := node_iter (node_iter leaf_iter).

Section Top.
  Variable oob : option N.
  Definition ps_new : pset := so_new (top_ops oob).
  Definition ps_insert (s : pset) (a : N) : option pset := so_insert (top_ops oob) s (N.shiftr a 3).
  Definition ps_erase (s : pset) (a : N) : option pset := so_erase (top_ops oob) s (N.shiftr a 3).
  Definition ps_contains (s : pset) (a : N) : option bool := so_contains (top_ops oob) s (N.shiftr a 3).
  Definition ps_begin (s : pset) : option pset_iter := so_begin (top_ops oob) s.
  Definition ps_end : pset_iter := so_end (top_ops oob).
  Definition ps_lower (s : pset) (a : N) : option pset_iter := so_lower (top_ops oob) s (N.shiftr a 3).
  Definition ps_next (s : pset) (it : pset_iter) : option pset_iter := so_next (top_ops oob) s it.
  Definition ps_prev (s : pset) (it : pset_iter) : option pset_iter := so_prev (top_ops oob) s it.
  (** hpp:234: the final [<< compressible_bitwidth_of<T>] *)
  Definition ps_deref (it : pset_iter) : option N :=
    match so_deref (top_ops oob) it with Some x => Some (N.shiftl x 3) | None => None end.
  Definition ps_size (s : pset) : N := nd_n s.
  Definition ps_eq (a b : pset_iter) : bool := so_eq (top_ops oob) a b.

  (** A range-based for loop [for (auto x : s)] collecting the values:
      iterate from begin() while != end(). *)
  Fixpoint ps_walk (fuel : nat) (s : pset) (it : pset_iter) : option (list N) :=
    match fuel with
    | O => None
    | S fuel' =>
      match ps_deref it with
      | None => Some []
      | Some a => do it' <- ps_next s it; do l <- ps_walk fuel' s it'; Some (a :: l)
      end
    end.
  Definition ps_elements (s : pset) : option (list N) :=
    do it <- ps_begin s; ps_walk (S (N.to_nat (ps_size s))) s it.
End Top.

(** Histories of the public mutators. *)
Inductive ps_op := Insert (a : N) | Erase (a : N).

Definition ps_step (oob : option N) (s : pset) (o : ps_op) : option pset :=
  match o with Insert a => ps_insert oob s a | Erase a => ps_erase oob s a end.

Definition ps_run (oob : option N) (h : list ps_op) : option pset :=
  fold_left (fun os o => do s <- os; ps_step oob s o) h (Some (ps_new oob)).
