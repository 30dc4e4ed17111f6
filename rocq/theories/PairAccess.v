(** Model of the compositions of car and cdr, of xcons, list and cons* (pair.hpp:85-121,
    boot.cpp:140, 273-307) on the heap of Lists.v. *)
From Coq Require Import ZArith List Bool String.
From Verif Require Import Lists.
Import ListNotations.

(** pair.hpp:76-80, boot.cpp:273 *)
Definition xcons (h : heap) (x y : val) : val * heap := cons_ h y x.

(** pair.hpp:85-88 *)
Definition caar h x := y <- car h x; car h y.
Definition cadr h x := y <- cdr h x; car h y.
Definition cdar h x := y <- car h x; cdr h y.
Definition cddr h x := y <- cdr h x; cdr h y.
(** pair.hpp:90-97 *)
Definition caaar h x := y <- caar h x; car h y.
Definition caadr h x := y <- cadr h x; car h y.
Definition cadar h x := y <- cdar h x; car h y.
Definition caddr h x := y <- cddr h x; car h y.
Definition cdaar h x := y <- caar h x; cdr h y.
Definition cdadr h x := y <- cadr h x; cdr h y.
Definition cddar h x := y <- cdar h x; cdr h y.
Definition cdddr h x := y <- cddr h x; cdr h y.
(** pair.hpp:99-114 *)
Definition caaaar h x := y <- caaar h x; car h y.
Definition caaadr h x := y <- caadr h x; car h y.
Definition caadar h x := y <- cadar h x; car h y.
Definition caaddr h x := y <- caddr h x; car h y.
Definition cadaar h x := y <- cdaar h x; car h y.
Definition cadadr h x := y <- cdadr h x; car h y.
Definition caddar h x := y <- cddar h x; car h y.
Definition cadddr h x := y <- cdddr h x; car h y.
Definition cdaaar h x := y <- caaar h x; cdr h y.
Definition cdaadr h x := y <- caadr h x; cdr h y.
Definition cdadar h x := y <- cadar h x; cdr h y.
Definition cdaddr h x := y <- caddr h x; cdr h y.
Definition cddaar h x := y <- cdaar h x; cdr h y.
Definition cddadr h x := y <- cdadr h x; cdr h y.
Definition cdddar h x := y <- cddar h x; cdr h y.
Definition cddddr h x := y <- cdddr h x; cdr h y.
(** boot.cpp:275-304: the procedures of these names, applied to their first argument *)
Definition accessors : list (string * (heap -> val -> res val)) :=
  [("car"%string, car); ("cdr"%string, cdr); ("caar"%string, caar); ("cadr"%string, cadr); ("cdar"%string, cdar); ("cddr"%string, cddr);
   ("caaar"%string, caaar); ("cdaar"%string, cdaar); ("caadr"%string, caadr); ("cdadr"%string, cdadr); ("cadar"%string, cadar); ("cddar"%string, cddar);
   ("caddr"%string, caddr); ("cdddr"%string, cdddr); ("caaaar"%string, caaaar); ("cdaaar"%string, cdaaar); ("caaadr"%string, caaadr);
   ("cdaadr"%string, cdaadr); ("caadar"%string, caadar); ("cdadar"%string, cdadar); ("caaddr"%string, caaddr); ("cdaddr"%string, cdaddr);
   ("cadaar"%string, cadaar); ("cddaar"%string, cddaar); ("cadadr"%string, cadadr); ("cddadr"%string, cddadr); ("caddar"%string, caddar);
   ("cdddar"%string, cdddar); ("cadddr"%string, cadddr); ("cddddr"%string, cddddr)].

(** list, boot.cpp:140: the list of the arguments itself *)
Definition list_ (h : heap) (xs : val) : val * heap := (xs, h).
(** cons*, boot.cpp:274: the loop looks for the last pair but one *)
Fixpoint last_but_one (fuel : nat) (h : heap) (node : val) : res val :=
  match fuel with
  | O => Loop
  | S fuel => d <- cdr h node; e <- cdr h d; if is_null e then Done node else last_but_one fuel h d
  end.
(** [None]: the error for no arguments *)
Definition cons_star (fuel : nat) (h : heap) (xs : val) : res (option val * heap) :=
  if is_null xs then Done (None, h)
  else d <- cdr h xs;
       if is_null d then x <- car h xs; Done (Some x, h)
       else node <- last_but_one fuel h xs;
            d <- cdr h node; x <- car h d; h <- set_cdr h node x; Done (Some xs, h).
