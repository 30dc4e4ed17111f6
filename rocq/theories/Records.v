(** Model of library/srfi-9.ss: record types on vectors, procedure by procedure.

    Simplifications.  The only objects with contents are vectors; a list of field tags is a
    value [Tags]; symbols are numbers; any other object is [Other n].  An error is [None],
    whatever its message: error itself is not among the imports of the library (line 24), so
    that the calls of error are errors too.  The macros define-record-type and
    define-record-field (121-142) only name the results of the procedures below. *)
From Coq Require Import ZArith List Bool Arith Lia.
Import ListNotations.

Inductive value :=
| Marker                          (* srfi-9.ss:28: the list record-marker, which eq? tells from all others *)
| Sym (s : nat) | Tags (ts : list nat)
| Ref (n : nat)                   (* a vector *)
| Unspecified
| Other (n : Z).
Definition value_eqb (x y : value) : bool :=     (* eq? *)
  match x, y with
  | Marker, Marker => true
  | Sym s, Sym t => s =? t
  | Ref n, Ref m => n =? m
  | Unspecified, Unspecified => true
  | Other n, Other m => Z.eqb n m
  | _, _ => false
  end.
Definition store := list (list value).
Fixpoint replace {A} (l : list A) (i : nat) (x : A) : list A :=
  match l, i with
  | [], _ => []
  | _ :: l, 0 => x :: l
  | y :: l, S i => y :: replace l i x
  end.
(** vector-ref, vector-set!, make-vector (boot.cpp: vector-ref, vector-set!; make-vector) *)
Definition vector_ref (h : store) (x : value) (i : nat) : option value :=
  match x with Ref n => match nth_error h n with Some v => nth_error v i | None => None end | _ => None end.
Definition vector_set (h : store) (x : value) (i : nat) (y : value) : option store :=
  match x with
  | Ref n => match nth_error h n with
             | Some v => if i <? length v then Some (replace h n (replace v i y)) else None
             | None => None
             end
  | _ => None
  end.
Definition make_vector (h : store) (k : nat) : store * value := (h ++ [repeat Unspecified k], Ref (length h)).

(** srfi-9.ss:30-34 *)
Definition is_record (h : store) (x : value) : bool :=
  match x with
  | Ref n => match nth_error h n with
             | Some v => (0 <? length v) && match nth_error v 0 with Some y => value_eqb y Marker | None => false end
             | None => false
             end
  | _ => false
  end.
(** 36-39 *)
Definition make_record (h : store) (size : nat) : option (store * value) :=
  let '(h, new) := make_vector h (size + 1) in
  match vector_set h new 0 Marker with Some h => Some (h, new) | None => None end.
(** 41-42, 44-45 *)
Definition record_ref (h : store) (x : value) (i : nat) : option value := vector_ref h x (i + 1).
Definition record_set (h : store) (x : value) (i : nat) (y : value) : option store := vector_set h x (i + 1) y.
Definition bind {A B} (o : option A) (f : A -> option B) : option B := match o with Some x => f x | None => None end.
Notation "'do' x <- o ; f" := (bind o (fun x => f)) (at level 200, x name, f at level 200).
Notation "'do' ' p <- o ; f" := (bind o (fun p => f)) (at level 200, p strict pattern, f at level 200).
(** 47-53: the type of the types is the first vector *)
Definition record_type_type : value := Ref 0.
Definition first_store : store := [[Marker; Ref 0; Sym 0; Tags [1; 2]]].
Lemma first_store_made :
  (do '(h, t) <- make_record [] 3; do h <- record_set h t 0 t; do h <- record_set h t 1 (Sym 0); do h <- record_set h t 2 (Tags [1; 2]); Some (h, t))
  = Some (first_store, record_type_type).
Proof. reflexivity. Qed.
(** 55-56 *)
Definition record_type (h : store) (x : value) : option value := record_ref h x 0.
(** 58-63 *)
Definition make_record_type (h : store) (name : nat) (tags : list nat) : option (store * value) :=
  do '(h, new) <- make_record h 3;
  do h <- record_set h new 0 record_type_type;
  do h <- record_set h new 1 (Sym name);
  do h <- record_set h new 2 (Tags tags);
  Some (h, new).
(** 68-69 *)
Definition record_type_field_tags (h : store) (type : value) : option (list nat) :=
  do v <- record_ref h type 2; match v with Tags ts => Some ts | _ => None end.
(** 71-77 *)
Fixpoint index_loop (tag i : nat) (tags : list nat) : option nat :=
  match tags with
  | [] => None
  | t :: tags => if tag =? t then Some i else index_loop tag (i + 1) tags
  end.
Definition field_index (h : store) (type : value) (tag : nat) : option nat :=
  do tags <- record_type_field_tags h type; index_loop tag 1 tags.
(** 79-95: what the constructor keeps, and its call; for-each goes from the first to the last *)
Fixpoint field_indexes (h : store) (type : value) (tags : list nat) : option (list nat) :=
  match tags with
  | [] => Some []
  | t :: tags => do i <- field_index h type t; do is <- field_indexes h type tags; Some (i :: is)
  end.
Record constructor := Constructor { c_type : value; c_size : nat; c_count : nat; c_indexes : list nat }.
Definition record_constructor (h : store) (type : value) (tags : list nat) : option constructor :=
  do fields <- record_type_field_tags h type;
  do is <- field_indexes h type tags;
  Some (Constructor type (length fields) (length tags) is).
Fixpoint set_all (h : store) (new : value) (args : list value) (is : list nat) : option store :=
  match args, is with
  | x :: args, i :: is => do h <- record_set h new i x; set_all h new args is
  | _, _ => Some h
  end.
Definition construct (h : store) (k : constructor) (args : list value) : option (store * value) :=
  if length args =? c_count k then
    do '(h, new) <- make_record h (c_size k + 1);
    do h <- record_set h new 0 (c_type k);
    do h <- set_all h new args (c_indexes k);
    Some (h, new)
  else None.
(** 97-101 *)
Definition predicate (h : store) (type thing : value) : bool :=
  is_record h thing && match record_type h thing with Some t => value_eqb t type | None => false end.
(** 103-110: an accessor keeps the type and the index *)
Definition access (h : store) (type : value) (index : nat) (thing : value) : option value :=
  if predicate h type thing then record_ref h thing index else None.
(** 112-119: a modifier *)
Definition modify (h : store) (type : value) (index : nat) (thing y : value) : option store :=
  if predicate h type thing then record_set h thing index y else None.

(** ** Programs: what they do with records and vectors, one after the other *)
Inductive op :=
| ODefine (name : nat) (tags : list nat)                             (* make a record type *)
| OConstruct (type : value) (tags : list nat) (args : list value)    (* its constructor with these fields, called *)
| OModify (type : value) (tag : nat) (thing y : value)
| OAccess (type : value) (tag : nat) (thing : value)
| OPredicate (type thing : value)
| OVector (vs : list value)                                          (* (vector v ...) *)
| OVectorSet (thing : value) (i : nat) (y : value)
| OVectorRef (thing : value) (i : nat)
| OIsVector (thing : value).
Inductive answer := Val (v : value) | Bool (b : bool) | Done | Error.
(** vector? (boot.cpp), vector *)
Definition is_vector (h : store) (x : value) : bool := match x with Ref n => n <? length h | _ => false end.
Definition perform (h : store) (o : op) : store * answer :=
  let give r := match r with Some (h', v) => (h', Val v) | None => (h, Error) end in
  let set r := match r with Some h' => (h', Done) | None => (h, Error) end in
  let get r := (h, match r with Some v => Val v | None => Error end) in
  match o with
  | ODefine name tags => give (make_record_type h name tags)
  | OConstruct type tags args => give (do k <- record_constructor h type tags; construct h k args)
  | OModify type tag thing y => set (do i <- field_index h type tag; modify h type i thing y)
  | OAccess type tag thing => get (do i <- field_index h type tag; access h type i thing)
  | OPredicate type thing => (h, Bool (predicate h type thing))
  | OVector vs => (h ++ [vs], Val (Ref (length h)))
  | OVectorSet thing i y => set (vector_set h thing i y)
  | OVectorRef thing i => get (vector_ref h thing i)
  | OIsVector thing => (h, Bool (is_vector h thing))
  end.
Fixpoint perform_all (h : store) (os : list op) : store * list answer :=
  match os with
  | [] => (h, [])
  | o :: os => let '(h, r) := perform h o in let '(h, rs) := perform_all h os in (h, r :: rs)
  end.
