(** Model of eq?, eqv? and equal?: include/meevax/kernel/comparator.hpp,
    src/kernel/comparator.cpp, binder::eqv (collector.hpp:100-117), pair::eqv
    (pair.cpp:23-26), object::eqv (collector.cpp:81-84), the equality of vectors
    (vector.cpp:24-27), strings (string.cpp:48) and homogeneous vectors
    (homogeneous_vector.hpp:95-105).

    Not modelled: complex numbers, homogeneous vectors of flonums, syntactic closures. *)
From Coq Require Import ZArith List Bool Lia.
From Verif Require Import Lists.
Import ListNotations.

(** An object: the empty list, a fixnum, another immediate by its bits, a heap address *)
Inductive ev := ENil | ESmall (z : Z) | EImm (bits : Z) | EPtr (p : nat).
(** What an address holds.  [ECell]: the classes derived from pair that have no equality of
    their own — box, closure, continuation, error, transformer, syntactic environment — by class.
    [EOpaque]: the classes that cannot be compared — symbols, procedures, ports. *)
Inductive eobj :=
| EPair (a d : ev)
| EVec (xs : list ev)
| EText (s : list Z)
| ELarge (z : Z)
| ERatio (n d : Z)
| EBytes (kind : nat) (xs : list Z)
| ECell (class : nat) (a d : ev)
| EOpaque.
Definition eheap := list eobj.

(** eq, comparator.hpp:24-27: the two words are equal (nan_boxing_pointer.hpp:290) *)
Definition eqw (x y : ev) : bool :=
  match x, y with
  | ENil, ENil => true
  | ESmall a, ESmall b => Z.eqb a b
  | EImm a, EImm b => Z.eqb a b
  | EPtr p, EPtr q => Nat.eqb p q
  | _, _ => false
  end.
Definition at_addr (h : eheap) (x : ev) : option eobj := match x with EPtr p => nth_error h p | _ => None end.
(** number::exact_integer_equals, number.cpp:504-507 *)
Definition int_value (h : eheap) (x : ev) : option Z :=
  match x with
  | ESmall z => Some z
  | EPtr p => match nth_error h p with Some (ELarge z) => Some z | _ => None end
  | _ => None
  end.
Definition exact_integer_equals (h : eheap) (x y : ev) : bool :=
  match int_value h x, int_value h y with Some a, Some b => Z.eqb a b | _, _ => false end.
Fixpoint zs_eqb (a b : list Z) : bool :=
  match a, b with
  | [], [] => true
  | x :: a, y :: b => Z.eqb x y && zs_eqb a b
  | _, _ => false
  end.
(** std::equal(v.begin(), v.end(), u.begin(), u.end(), equal) *)
Fixpoint all_equal (rec : ev -> ev -> res bool) (xs ys : list ev) : res bool :=
  match xs, ys with
  | [], [] => Done true
  | x :: xs, y :: ys => b <- rec x y; if b then all_equal rec xs ys else Done false
  | _, _ => Done false
  end.
(** object::eqv with binder::eqv and pair::eqv.  [rec] is equal.  Comparing valarrays of different
    lengths is undefined behaviour. *)
Definition object_eqv (rec : ev -> ev -> res bool) (h : eheap) (x y : ev) : res bool :=
  match at_addr h x with
  | None => Done (eqw x y)
  | Some ox =>
    match ox, at_addr h y with
    | EPair _ _, _ => Done (eqw x y)
    | EVec xs, Some (EVec ys) => if eqw x y then Done true
                                 else if Nat.eqb (length xs) (length ys) then all_equal rec xs ys else Done false
    | EText s, Some (EText t) => Done (zs_eqb s t)
    | ELarge a, Some (ELarge b) => Done (Z.eqb a b)
    | ERatio a b, Some (ERatio c d) => Done (Z.eqb a c && Z.eqb b d)
    | EBytes k s, Some (EBytes l t) =>
      if Nat.eqb k l then if Nat.eqb (length s) (length t) then Done (zs_eqb s t) else Ub else Done false
    | ECell c a d, Some (ECell c' a' d') => Done (Nat.eqb c c' && (eqw a a' && eqw d d'))
    | _, _ => Done false
    end
  end.
(** eqv, comparator.hpp:29-32 *)
Definition eqv_ (rec : ev -> ev -> res bool) (h : eheap) (x y : ev) : res bool :=
  if eqw x y then Done true
  else e <- object_eqv rec h x y; if e then Done true else Done (exact_integer_equals h x y).

(** ** The forest of comparator.cpp: boxes hold a rank or the parent *)
Inductive slot := Rank (n : Z) | Up (b : nat).
Record forest := Forest { entry_of : list (nat * nat); boxes : list slot }.
Definition no_forest := Forest [] [].
Fixpoint lookup (m : list (nat * nat)) (p : nat) : option nat :=
  match m with
  | [] => None
  | (q, b) :: m => if Nat.eqb q p then Some b else lookup m p
  end.
Fixpoint store (l : list slot) (b : nat) (s : slot) : list slot :=
  match l, b with
  | [], _ => []
  | _ :: r, O => s :: r
  | x :: r, S b => x :: store r b s
  end.
(** find, comparator.cpp:23-33, with path compression *)
Fixpoint find (fuel : nat) (l : list slot) (b : nat) : res (nat * list slot) :=
  match fuel with
  | O => Loop
  | S fuel =>
    match nth_error l b with
    | Some (Up c) => '(r, l) <- find fuel l c; Done (r, store l b (Up r))
    | Some (Rank _) => Done (b, l)
    | None => Ub
    end
  end.
Definition rank (l : list slot) (b : nat) : res Z :=
  match nth_error l b with Some (Rank n) => Done n | _ => Ub end.
(** union_find, comparator.cpp:35-83, on the addresses of two pairs *)
Definition union_find (f : forest) (x y : nat) : res (bool * forest) :=
  let m := entry_of f in
  let fuel := S (length (boxes f)) in
  match lookup m x, lookup m y with
  | Some bx, Some by_ =>
    '(rx, l) <- find fuel (boxes f) bx;
    '(ry, l) <- find fuel l by_;
    if Nat.eqb rx ry then Done (true, Forest m l)
    else
      kx <- rank l rx; ky <- rank l ry;
      if (ky <? kx)%Z then Done (false, Forest m (store (store l rx (Rank (kx + ky))) ry (Up rx)))
      else Done (false, Forest m (store (store l rx (Up ry)) ry (Rank (kx + ky))))
  | Some bx, None => '(rx, l) <- find fuel (boxes f) bx; Done (false, Forest ((y, rx) :: m) l)
  | None, Some by_ => '(ry, l) <- find fuel (boxes f) by_; Done (false, Forest ((x, ry) :: m) l)
  | None, None => let b := length (boxes f) in Done (false, Forest ((x, b) :: (y, b) :: m) (boxes f ++ [Rank 1]))
  end.

(** equal with a forest, comparator.cpp:88-93; elements of vectors are compared by
    equal/2, which starts a new forest (comparator.cpp:95-99) *)
Fixpoint equal_in (fuel : nat) (h : eheap) (f : forest) (x y : ev) : res (bool * forest) :=
  match fuel with
  | O => Loop
  | S fuel =>
    e <- eqv_ (fun x y => '(b, _) <- equal_in fuel h no_forest x y; Done b) h x y;
    if e then Done (true, f)
    else
      match x, y with
      | EPtr p, EPtr q =>
        match nth_error h p, nth_error h q with
        | Some (EPair a d), Some (EPair a' d') =>
          '(u, f) <- union_find f p q;
          if u then Done (true, f)
          else '(b, f) <- equal_in fuel h f a a'; if b then equal_in fuel h f d d' else Done (false, f)
        | _, _ => Done (false, f)
        end
      | _, _ => Done (false, f)
      end
  end.
(** the procedures, boot.cpp:115-117 *)
Definition eq_p (x y : ev) : bool := eqw x y.
Definition equal_p (fuel : nat) (h : eheap) (x y : ev) : res bool :=
  '(b, _) <- equal_in fuel h no_forest x y; Done b.
Definition eqv_p (fuel : nat) (h : eheap) (x y : ev) : res bool := eqv_ (equal_p fuel h) h x y.
