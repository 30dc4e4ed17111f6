(** Model of src/kernel/list.cpp, include/meevax/kernel/list.hpp, the list iterator
    (iterator.hpp) and the list procedures of src/kernel/boot.cpp:138-183.

    The heap is a list of objects, an address is a position in it and allocation
    appends.  Every heap object derives from pair (collector.hpp:77, 148), so it has a
    car and a cdr; [pairp] says whether its type is pair itself.  Collections are not
    modelled here (see Collector.v).  Recursions that follow cdr take fuel: [Loop] means the
    fuel ran out. *)
From Coq Require Import ZArith List Bool Lia.
Import ListNotations.

(** nan_boxing_pointer.hpp: the empty list, an immediate (boolean, fixnum, character,
    float, double, instruction) by its bits, or a pointer *)
Inductive val := Nil | Imm (bits : Z) | Ptr (p : nat).
Record obj := Obj { pairp : bool; first : val; second : val }.
Definition heap := list obj.

Inductive res (A : Type) := Done (a : A) | Ub | Loop.
Arguments Done {A} a. Arguments Ub {A}. Arguments Loop {A}.
Definition rbind {A B} (m : res A) (f : A -> res B) : res B :=
  match m with Done a => f a | Ub => Ub | Loop => Loop end.
Notation "x <- m ; f" := (rbind m (fun x => f)) (at level 61, m at next level, right associativity).
Notation "' p <- m ; f" := (rbind m (fun p => f)) (at level 61, p pattern, m at next level, right associativity).

(** eq: the boxed words are compared (comparator.hpp) *)
Definition veq (x y : val) : bool :=
  match x, y with
  | Nil, Nil => true
  | Imm a, Imm b => Z.eqb a b
  | Ptr p, Ptr q => Nat.eqb p q
  | _, _ => false
  end.
(** x.is<pair>(), x.is<null>(): object.hpp:144-148 *)
Definition is_pair (h : heap) (x : val) : bool :=
  match x with Ptr p => match nth_error h p with Some o => pairp o | None => false end | _ => false end.
Definition is_null (x : val) : bool := match x with Nil => true | _ => false end.
(** car, cdr: pair.hpp:76-77 through object::as<pair> (object.hpp:113-117), which
    dereferences the payload whatever the signature says *)
Definition car (h : heap) (x : val) : res val :=
  match x with Ptr p => match nth_error h p with Some o => Done (first o) | None => Ub end | _ => Ub end.
Definition cdr (h : heap) (x : val) : res val :=
  match x with Ptr p => match nth_error h p with Some o => Done (second o) | None => Ub end | _ => Ub end.
(** cons: pair.hpp:52-69 *)
Definition cons_ (h : heap) (a d : val) : val * heap := (Ptr (length h), h ++ [Obj true a d]).
Fixpoint put (h : heap) (p : nat) (o : obj) : heap :=
  match h, p with
  | [], _ => []
  | _ :: r, O => o :: r
  | x :: r, S p => x :: put r p o
  end.
(** cdr(x) = v *)
Definition set_cdr (h : heap) (x v : val) : res heap :=
  match x with
  | Ptr p => match nth_error h p with
             | Some o => Done (put h p (Obj (pairp o) (first o) v))
             | None => Ub
             end
  | _ => Ub
  end.

(** ** Predicates *)
(** list.cpp:47-72 *)
Fixpoint is_proper_list (fuel : nat) (h : heap) (x0 y0 : val) : res bool :=
  match fuel with
  | O => Loop
  | S fuel =>
    if is_pair h x0 then
      x1 <- cdr h x0;
      if is_pair h x1 then
        x2 <- cdr h x1; y1 <- cdr h y0;
        if veq x2 y1 then Done false else is_proper_list fuel h x2 y1
      else Done (is_null x1)
    else Done (is_null x0)
  end.
(** list.cpp:74-99 *)
Fixpoint is_circular_list (fuel : nat) (h : heap) (x0 y0 : val) : res bool :=
  match fuel with
  | O => Loop
  | S fuel =>
    if is_pair h x0 then
      x1 <- cdr h x0;
      if is_pair h x1 then
        x2 <- cdr h x1; y1 <- cdr h y0;
        if veq x2 y1 then Done true else is_circular_list fuel h x2 y1
      else Done false
    else Done false
  end.
(** list.cpp:101-126 *)
Fixpoint is_dotted_list (fuel : nat) (h : heap) (x0 y0 : val) : res bool :=
  match fuel with
  | O => Loop
  | S fuel =>
    if is_pair h x0 then
      x1 <- cdr h x0;
      if is_pair h x1 then
        x2 <- cdr h x1; y1 <- cdr h y0;
        if veq x2 y1 then Done false else is_dotted_list fuel h x2 y1
      else Done (negb (is_null x1))
    else Done (negb (is_null x0))
  end.
(** list?, circular-list?, dotted-list?: boot.cpp:139, 143, 145 *)
Definition proper_p fuel h x := is_proper_list fuel h x x.
Definition circular_p fuel h x := is_circular_list fuel h x x.
Definition dotted_p fuel h x := is_dotted_list fuel h x x.

(** ** Procedures that allocate *)
(** list.cpp:23-33 *)
Fixpoint make_list (size : nat) (h : heap) (x : val) : val * heap :=
  match size with
  | O => (Nil, h)
  | S size => let '(r, h) := make_list size h x in cons_ h x r
  end.
(** list.cpp:35-45; [plus] is the addition of number objects (modelled in Number.v) *)
Fixpoint iota (count : nat) (h : heap) (plus : val -> val -> val) (start step : val) : val * heap :=
  match count with
  | O => (Nil, h)
  | S count => let '(r, h) := iota count h plus (plus start step) step in cons_ h start r
  end.
(** list.cpp:128-138 *)
Fixpoint list_copy (fuel : nat) (h : heap) (x : val) : res (val * heap) :=
  match fuel with
  | O => Loop
  | S fuel =>
    if is_pair h x then
      a <- car h x; d <- cdr h x;
      '(r, h) <- list_copy fuel h d; Done (cons_ h a r)
    else Done (x, h)
  end.
(** list.cpp:140-150 *)
Fixpoint take (h : heap) (x : val) (k : nat) : res (val * heap) :=
  match k with
  | O => Done (Nil, h)
  | S k => a <- car h x; d <- cdr h x; '(r, h) <- take h d k; Done (cons_ h a r)
  end.
(** list.cpp:182-204 (both overloads), tail list.hpp:68-71 *)
Fixpoint drop (h : heap) (x : val) (k : nat) : res val :=
  match k with
  | O => Done x
  | S k => d <- cdr h x; drop h d k
  end.
(** head, list.hpp:73-76 *)
Definition list_ref (h : heap) (x : val) (k : nat) : res val := t <- drop h x k; car h t.
(** list.cpp:165-180 *)
Fixpoint take_right_loop (fuel : nat) (h : heap) (x y : val) : res val :=
  match fuel with
  | O => Loop
  | S fuel => if is_pair h y then x' <- cdr h x; y' <- cdr h y; take_right_loop fuel h x' y' else Done x
  end.
Definition take_right fuel h x k : res val := y <- drop h x k; take_right_loop fuel h x y.
(** list.cpp:206-221 *)
Fixpoint drop_right_loop (fuel : nat) (h : heap) (x y : val) : res (val * heap) :=
  match fuel with
  | O => Loop
  | S fuel =>
    if is_pair h y then
      a <- car h x; x' <- cdr h x; y' <- cdr h y;
      '(r, h) <- drop_right_loop fuel h x' y'; Done (cons_ h a r)
    else Done (Nil, h)
  end.
Definition drop_right fuel h x k : res (val * heap) := y <- drop h x k; drop_right_loop fuel h x y.
(** length, list.cpp:248-251: std::ranges::distance over the iterator of
    iterator.hpp:54-135 with proper_list_policy, whose ++ takes second.get() — null for
    the empty list and for immediates, otherwise the object of whatever type *)
Fixpoint length_loop (fuel : nat) (h : heap) (node : val) : res Z :=
  match fuel with
  | O => Loop
  | S fuel => match node with
              | Ptr _ => d <- cdr h node; n <- length_loop fuel h d; Done (1 + n)%Z
              | _ => Done 0%Z
              end
  end.
(** the procedure length, boot.cpp:149: cast to a 32-bit int *)
Definition length_ fuel h x : res Z :=
  n <- length_loop fuel h x; Done ((n + 2^31) mod 2^32 - 2^31)%Z.
(** append, list.cpp:253-263 *)
Fixpoint append (fuel : nat) (h : heap) (x y : val) : res (val * heap) :=
  match fuel with
  | O => Loop
  | S fuel =>
    if is_pair h x then
      a <- car h x; d <- cdr h x; '(r, h) <- append fuel h d y; Done (cons_ h a r)
    else Done (y, h)
  end.
(** the n-ary procedure append, boot.cpp:151 *)
Fixpoint append_all (fuel : nat) (h : heap) (acc : val) (xs : list val) : res (val * heap) :=
  match xs with
  | [] => Done (acc, h)
  | x :: xs => '(r, h) <- append fuel h acc x; append_all fuel h r xs
  end.
(** append_reverse, list.cpp:282-292 *)
Fixpoint append_reverse (fuel : nat) (h : heap) (x y : val) : res (val * heap) :=
  match fuel with
  | O => Loop
  | S fuel =>
    if is_null x then Done (y, h)
    else a <- car h x; let '(c, h') := cons_ h a y in d <- cdr h' x; append_reverse fuel h' d c
  end.
(** reverse, list.cpp:306-321 *)
Fixpoint reverse_loop (fuel : nat) (h : heap) (x a : val) : res (val * heap) :=
  match fuel with
  | O => Loop
  | S fuel =>
    if is_pair h x then
      e <- car h x; let '(c, h') := cons_ h e a in d <- cdr h' x; reverse_loop fuel h' d c
    else Done (a, h)
  end.
Definition reverse fuel h x := reverse_loop fuel h x Nil.
(** last_pair, last: list.hpp:40-48 *)
Fixpoint last_pair (fuel : nat) (h : heap) (x : val) : res val :=
  match fuel with
  | O => Loop
  | S fuel => d <- cdr h x; if is_pair h d then last_pair fuel h d else Done x
  end.
Definition last_ fuel h x : res val := p <- last_pair fuel h x; car h p.
(** map, list.hpp:106-116 (used by the kernel itself) *)
Fixpoint map_ (fuel : nat) (h : heap) (f : val -> val) (x y : val) : res (val * heap) :=
  match fuel with
  | O => Loop
  | S fuel =>
    if is_pair h x then
      a <- car h x; d <- cdr h x; '(r, h) <- map_ fuel h f d y; Done (cons_ h (f a) r)
    else Done (y, h)
  end.
(** filter, list.hpp:130-147 *)
Fixpoint filter_ (fuel : nat) (h : heap) (t : val -> bool) (x : val) : res (val * heap) :=
  match fuel with
  | O => Loop
  | S fuel =>
    if is_pair h x then
      a <- car h x; d <- cdr h x;
      if t a then '(r, h) <- filter_ fuel h t d; Done (cons_ h a r) else filter_ fuel h t d
    else Done (Nil, h)
  end.

(** ** Procedures that write *)
(** take(object &, k), list.cpp:152-163 *)
Definition take_x (h : heap) (x : val) (k : nat) : res (val * heap) :=
  match k with
  | O => Done (Nil, h)
  | S k => p <- drop h x k; h' <- set_cdr h p Nil; Done (x, h')
  end.
(** drop_right(object &, ...), list.cpp:223-246 *)
Fixpoint drop_right_x_loop (fuel : nat) (h : heap) (x y : val) : res heap :=
  match fuel with
  | O => Loop
  | S fuel => if is_pair h y then x' <- cdr h x; y' <- cdr h y; drop_right_x_loop fuel h x' y'
              else set_cdr h x Nil
  end.
Definition drop_right_x fuel h x k : res (val * heap) :=
  y <- drop h x k;
  if is_pair h y then y' <- cdr h y; h' <- drop_right_x_loop fuel h x y'; Done (x, h')
  else Done (Nil, h).
(** append(object &, y), list.cpp:265-280 *)
Definition append_x2 fuel (h : heap) (x y : val) : res (val * heap) :=
  if is_null x then Done (y, h)
  else if is_null y then Done (x, h)
  else p <- last_pair fuel h x; h' <- set_cdr h p y; Done (x, h').
(** the procedure append!, boot.cpp:152: the rest is appended before this argument is
    written to; assignments to the argument list itself are not modelled *)
Fixpoint append_x fuel (h : heap) (x : val) (xs : list val) : res (val * heap) :=
  match xs with
  | [] => Done (x, h)
  | y :: ys =>
    '(r, h) <- append_x fuel h y ys;
    if is_null x then Done (r, h) else append_x2 fuel h x r
  end.
Definition append_x_proc fuel h (xs : list val) : res (val * heap) :=
  match xs with [] => Done (Nil, h) | x :: xs => append_x fuel h x xs end.
(** reverse(object &), list.cpp:323-338: std::exchange returns a prvalue, so the
    recursive call is the copying overload *)
Definition reverse_x fuel (h : heap) (x : val) : res (val * heap) :=
  if is_null x then Done (Nil, h)
  else d <- cdr h x; h' <- set_cdr h x Nil; reverse_loop fuel h' d x.
(** append_reverse(object &, y), list.cpp:294-304: likewise *)
Definition append_reverse_x fuel (h : heap) (x y : val) : res (val * heap) :=
  if is_null x then Done (y, h)
  else d <- cdr h x; h' <- set_cdr h x y; append_reverse fuel h' d x.
(** circulate, list.hpp:50-53; circular-list, boot.cpp:144 *)
Definition circulate fuel (h : heap) (x : val) : res heap := p <- last_pair fuel h x; set_cdr h p x.
Definition circular_list fuel (h : heap) (x : val) : res (val * heap) :=
  '(c, h) <- list_copy fuel h x; h' <- circulate fuel h c; Done (c, h').

(** ** Searching *)
(** memq, memv: list.cpp:340-376; [None] is #f.  [same] is eq or eqv. *)
Fixpoint mem (fuel : nat) (h : heap) (same : val -> val -> bool) (x xs : val) : res (option val) :=
  match fuel with
  | O => Loop
  | S fuel =>
    if is_pair h xs then
      a <- car h xs;
      if same x a then Done (Some xs) else d <- cdr h xs; mem fuel h same x d
    else Done None
  end.
(** assq, assv: list.cpp:378-414 *)
Fixpoint ass (fuel : nat) (h : heap) (same : val -> val -> bool) (x xs : val) : res (option val) :=
  match fuel with
  | O => Loop
  | S fuel =>
    if is_pair h xs then
      e <- car h xs; k <- car h e;
      if same x k then Done (Some e) else d <- cdr h xs; ass fuel h same x d
    else Done None
  end.
(** alist_copy, list.cpp:421-428 *)
Fixpoint alist_copy (fuel : nat) (h : heap) (x : val) : res (val * heap) :=
  match fuel with
  | O => Loop
  | S fuel =>
    if is_pair h x then
      e <- car h x; d <- cdr h x; k <- car h e; v <- cdr h e;
      '(r, h) <- alist_copy fuel h d;
      let '(c, h) := cons_ h k v in Done (cons_ h c r)
    else Done (Nil, h)
  end.
