(** The derived forms of library/r4rs.ss (cond, and, or, quasiquote, let, let*, do, case) and of
    library/r7rs.ss (when, unless): each transformer as a function from the form to its expansion.

    A form is a tree of identifiers and constants.  [Ren k] is (rename 'k): an identifier that
    refers to k where the macro is defined and that no other part of the program captures (that is
    C58 and C59).  [Lit] is an object that the transformer puts into the form itself:
    #t, #f and the value of (if #f #f).

    Simplifications.  [same k x] stands for (compare (rename 'k) x).  car and cdr of an object
    that is not a pair are [Nil]; in the program they are an error (C51), and the theorems
    speak about forms for which that does not happen.  A vector is a form that carries the list
    of its elements.  The transformers that are written with quasiquote in the library are
    written here with the lists that these quasiquotations build (C63). *)
From Coq Require Import List Bool Arith.
Import ListNotations.

(** the symbols that the transformers pass to rename *)
Inductive name :=
| n_if | n_begin | n_lambda | n_letrec | n_quote | n_else | n_arrow | n_result | n_it | n_rec
| n_cond | n_and | n_or | n_case | n_let | n_let_star | n_not | n_eqv | n_memv
| n_list | n_cons | n_append | n_list_to_vector | n_unquote | n_unquote_splicing | n_quasiquote.
Inductive lit := l_true | l_false | l_unspecified.
Inductive form := Nil | Const (c : nat) | Id (x : nat) | Pair (a d : form) | Vec (elements : form) | Ren (k : name) | Lit (l : lit).

(** pair.hpp, list.hpp *)
Definition car (x : form) : form := match x with Pair a _ => a | _ => Nil end.
Definition cdr (x : form) : form := match x with Pair _ d => d | _ => Nil end.
Definition cadr x := car (cdr x).    Definition cddr x := cdr (cdr x).
Definition caar x := car (car x).    Definition cdar x := cdr (car x).
Definition caaar x := car (caar x).  Definition cdaar x := cdr (caar x).
Definition caadr x := car (cadr x).  Definition cdadr x := cdr (cadr x).
Definition caddr x := car (cddr x).  Definition cdddr x := cdr (cddr x).
Definition caaddr x := car (caddr x).  Definition cdaddr x := cdr (caddr x).
Definition is_null (x : form) : bool := match x with Nil => true | _ => false end.
Definition is_pair (x : form) : bool := match x with Pair _ _ => true | _ => false end.
Fixpoint flist (l : list form) : form := match l with [] => Nil | x :: l => Pair x (flist l) end.
Fixpoint append (x y : form) : form := match x with Pair a d => Pair a (append d y) | _ => y end.
(** meevax.ss:127-142, one list *)
Fixpoint map (f : form -> form) (x : form) : form := match x with Pair a d => Pair (f a) (map f d) | _ => Nil end.
(** boot.cpp: identifier? *)
Definition is_identifier (x : form) : bool := match x with Id _ | Ren _ => true | _ => false end.

Section Transformers.
Variable same : name -> form -> bool.
(** the symbol with that name, not renamed *)
Variable symbol : name -> nat.

(** r4rs.ss:91-115 *)
Definition cond_ (form : form) : DerivedForms.form :=
  if is_null (cdr form) then Lit l_unspecified
  else let clause := cadr form in
       if same n_else (car clause) then Pair (Ren n_begin) (cdr clause)
       else if (if is_null (cdr clause) then true else same n_arrow (cadr clause))
       then flist [flist [Ren n_lambda; flist [Ren n_result];
                          flist [Ren n_if; Ren n_result;
                                 if is_null (cdr clause) then Ren n_result else flist [caddr clause; Ren n_result];
                                 Pair (Ren n_cond) (cddr form)]];
                   car clause]
       else flist [Ren n_if; car clause; Pair (Ren n_begin) (cdr clause); Pair (Ren n_cond) (cddr form)].
(** r4rs.ss:117-127 *)
Definition and_ (form : form) : DerivedForms.form :=
  if is_null (cdr form) then Lit l_true
  else if is_null (cddr form) then cadr form
  else flist [Ren n_if; cadr form; Pair (Ren n_and) (cddr form); Lit l_false].
(** r4rs.ss:129-142 *)
Definition or_ (form : form) : DerivedForms.form :=
  if is_null (cdr form) then Lit l_false
  else if is_null (cddr form) then cadr form
  else flist [flist [Ren n_lambda; flist [Ren n_result];
                     flist [Ren n_if; Ren n_result; Ren n_result; Pair (Ren n_or) (cddr form)]];
              cadr form].
(** r4rs.ss:147-184, the procedure expand; depth is never negative, so (<= depth 0) is (= depth 0) *)
Fixpoint expand_quasi (x : form) (depth : nat) {struct x} : form :=
  match x with
  | Pair a d =>
    if same n_unquote a then
      match depth with
      | 0 => car d
      | S depth => flist [Ren n_list; flist [Ren n_quote; Id (symbol n_unquote)];
                          match d with Pair b _ => expand_quasi b depth | _ => Nil end]
      end
    else if same n_unquote_splicing a then
      match depth with
      | 0 => flist [Ren n_cons; expand_quasi a 0; expand_quasi d 0]
      | S depth => flist [Ren n_list; flist [Ren n_quote; Id (symbol n_unquote_splicing)];
                          match d with Pair b _ => expand_quasi b depth | _ => Nil end]
      end
    else if same n_quasiquote a then
      flist [Ren n_list; flist [Ren n_quote; Id (symbol n_quasiquote)];
             match d with Pair b _ => expand_quasi b (S depth) | _ => Nil end]
    else if (depth =? 0) && is_pair a && same n_unquote_splicing (car a) then
      if is_null d then cadr a else flist [Ren n_append; cadr a; expand_quasi d depth]
    else flist [Ren n_cons; expand_quasi a depth; expand_quasi d depth]
  | Vec elements => flist [Ren n_list_to_vector; expand_quasi elements depth]
  | Id _ | Ren _ | Nil => flist [Ren n_quote; x]
  | _ => x
  end.
(** r4rs.ss:144-185 *)
Definition quasiquote_ (form : form) : DerivedForms.form := expand_quasi (cadr form) 0.
(** r4rs.ss:187-195 *)
Definition let_ (form : form) : DerivedForms.form :=
  if is_identifier (cadr form)
  then flist [Ren n_letrec; flist [flist [cadr form; Pair (Ren n_lambda) (Pair (map car (caddr form)) (cdddr form))]];
              Pair (cadr form) (map cadr (caddr form))]
  else Pair (Pair (Ren n_lambda) (Pair (map car (cadr form)) (cddr form))) (map cadr (cadr form)).
(** r4rs.ss:197-204 *)
Definition let_star (form : form) : DerivedForms.form :=
  if is_null (cadr form) then Pair (Ren n_let) (Pair Nil (cddr form))
  else flist [Ren n_let; flist [caadr form]; Pair (Ren n_let_star) (Pair (cdadr form) (cddr form))].
(** r4rs.ss:206-226 *)
Definition do_ (form : form) : DerivedForms.form :=
  let body := Pair (Ren n_begin)
    (append (cdddr form) (flist [Pair (Ren n_rec) (map (fun x => if is_pair (cddr x) then caddr x else car x) (cadr form))])) in
  flist [Ren n_let; Ren n_rec; map (fun x => flist [car x; cadr x]) (cadr form);
         if is_null (cdaddr form)
         then flist [Ren n_let; flist [flist [Ren n_it; caaddr form]]; flist [Ren n_if; Ren n_it; Ren n_it; body]]
         else flist [Ren n_if; caaddr form; Pair (Ren n_begin) (cdaddr form); body]].
(** r4rs.ss:231-234 *)
Definition case_body (xs : form) : form :=
  if is_null xs then Ren n_result
  else if same n_arrow (car xs) then flist [cadr xs; Ren n_result]
  else Pair (Ren n_begin) xs.
(** r4rs.ss:235-249 *)
Fixpoint each_clause (clauses : form) : form :=
  match clauses with
  | Pair clause rest =>
    if same n_else (car clause) then case_body (cdr clause)
    else if is_pair (car clause) && is_null (cdar clause)
    then flist [Ren n_if; flist [Ren n_eqv; Ren n_result; flist [Ren n_quote; caar clause]]; case_body (cdr clause); each_clause rest]
    else flist [Ren n_if; flist [Ren n_memv; Ren n_result; flist [Ren n_quote; car clause]]; case_body (cdr clause); each_clause rest]
  | _ => Lit l_unspecified
  end.
(** r4rs.ss:228-251 *)
Definition case_ (form : form) : DerivedForms.form :=
  flist [Ren n_let; flist [flist [Ren n_result; cadr form]]; each_clause (cddr form)].
(** r7rs.ss:102-106 *)
Definition when_ (form : form) : DerivedForms.form := flist [Ren n_if; cadr form; Pair (Ren n_begin) (cddr form)].
(** r7rs.ss:108-112 *)
Definition unless_ (form : form) : DerivedForms.form := flist [Ren n_if; flist [Ren n_not; cadr form]; Pair (Ren n_begin) (cddr form)].

(** the macros that expansions of these macros use *)
Definition macro (k : name) : option (form -> form) :=
  match k with
  | n_cond => Some cond_ | n_and => Some and_ | n_or => Some or_ | n_let => Some let_ | n_let_star => Some let_star
  | _ => None
  end.
End Transformers.
