(** What the definitions that define-values (library/r7rs.ss:127-158) expands to compute, and what R7RS 5.3.3
    says that define-values defines.

    A pair is a number into the heap.  [user e g h vs g' h'] is that the expression e of the program, with the variables g and the heap h,
    gives the values vs and leaves g' and h', with no assumption about it. *)
From Coq Require Import String List Bool Arith.
From Verif Require Import SyntaxRules Macros MacrosSpec.
Import ListNotations.
Local Open Scope nat_scope.

Inductive value := Ref (p : nat) | Empty | False_ | Unspecified | Atom (n : nat).
Definition heap := list (value * value).
Definition vars := nat -> option value.
Definition define (g : vars) (x : nat) (v : value) : vars := fun y => if y =? x then Some v else g y.
Fixpoint replace {A} (l : list A) (i : nat) (x : A) : list A :=
  match l, i with [], _ => [] | _ :: l, 0 => x :: l | y :: l, S i => y :: replace l i x end.
(** list (the pairs are new; which numbers they have does not matter) *)
Fixpoint cells (p : nat) (vs : list value) : heap :=
  match vs with [] => [] | [v] => [(v, Empty)] | v :: vs => (v, Ref (S p)) :: cells (S p) vs end.
Definition list_of (h : heap) (vs : list value) : value * heap :=
  (match vs with [] => Empty | _ => Ref (length h) end, h ++ cells (length h) vs).
(** the object v is a list of vs *)
Inductive listed (h : heap) : value -> list value -> Prop :=
| L_empty : listed h Empty []
| L_pair p a d vs : nth_error h p = Some (a, d) -> listed h d vs -> listed h (Ref p) (a :: vs).
Section Semantics.
Variable user : datum -> vars -> heap -> list value -> vars -> heap -> Prop.

(** ** The definitions of an expansion *)
Definition tmps := nat -> option value.
Definition car (h : heap) (v : value) : option value := match v with Ref p => option_map fst (nth_error h p) | _ => None end.
Definition cdr (h : heap) (v : value) : option value := match v with Ref p => option_map snd (nth_error h p) | _ => None end.
Definition obind {A B} (o : option A) (f : A -> option B) : option B := match o with Some x => f x | None => None end.
Inductive computes (t : tmps) (g : vars) (h : heap) : datum -> value -> vars -> heap -> Prop :=
| C_user e v g' h' : plain e = true -> user e g h [v] g' h' -> computes t g h e v g' h'
| C_tmp x v : Nat.odd x = true -> t x = Some v -> computes t g h (Id x) v g h
(** (call-with-values (lambda () e) list) *)
| C_list f l k e vs g' h' v h'' : is "call-with-values" f -> is "lambda" l -> is "list" k -> plain e = true -> user e g h vs g' h' -> list_of h' vs = (v, h'') ->
    computes t g h (dlist [Id f; dlist [Id l; Nil; e]; Id k]) v g' h''
(** (call-with-values (lambda () e) (lambda xs #f)) *)
| C_none f l l' x e vs g' h' : is "call-with-values" f -> is "lambda" l -> is "lambda" l' -> Nat.odd x = true -> plain e = true -> user e g h vs g' h' ->
    computes t g h (dlist [Id f; dlist [Id l; Nil; e]; dlist [Id l'; Id x; Bool false]]) False_ g' (snd (list_of h' vs))
(** (car x), (cdr x), (cadr x), (cddr x) of a variable of the program *)
| C_car f x v w : is "car" f -> Nat.even x = true -> g x = Some v -> car h v = Some w -> computes t g h (dlist [Id f; Id x]) w g h
| C_cdr f x v w : is "cdr" f -> Nat.even x = true -> g x = Some v -> cdr h v = Some w -> computes t g h (dlist [Id f; Id x]) w g h
| C_cadr f x v w : is "cadr" f -> Nat.even x = true -> g x = Some v -> obind (cdr h v) (car h) = Some w -> computes t g h (dlist [Id f; Id x]) w g h
| C_cddr f x v w : is "cddr" f -> Nat.even x = true -> g x = Some v -> obind (cdr h v) (cdr h) = Some w -> computes t g h (dlist [Id f; Id x]) w g h
(** (set-cdr! x e), (set! x e) *)
| C_set_cdr f x e v g' h' p a d : is "set-cdr!" f -> Nat.even x = true -> computes t g h e v g' h' -> g' x = Some (Ref p) -> nth_error h' p = Some (a, d) ->
    computes t g h (dlist [Id f; Id x; e]) Unspecified g' (replace h' p (a, v))
| C_set f x e v w g' h' : is "set!" f -> Nat.even x = true -> computes t g h e v g' h' -> g' x = Some w -> computes t g h (dlist [Id f; Id x; e]) Unspecified (define g' x v) h'
(** (let ((x e)) e1 e2), x a variable of the macro *)
| C_let f x e e1 e2 v g1 h1 w g2 h2 r g3 h3 : is "let" f -> Nat.odd x = true -> computes t g h e v g1 h1 ->
    computes (set value t x v) g1 h1 e1 w g2 h2 -> computes (set value t x v) g2 h2 e2 r g3 h3 ->
    computes t g h (dlist [Id f; dlist [dlist [Id x; e]]; e1; e2]) r g3 h3.
Inductive runs : vars -> heap -> datum -> vars -> heap -> Prop :=
| R_define g h f x e v g' h' : is "define" f -> computes (fun _ => None) g h e v g' h' -> runs g h (dlist [Id f; Id x; e]) (define g' x v) h'
| R_begin g h f ds g' h' : is "begin" f -> runs_all g h ds g' h' -> runs g h (Pair (Id f) (dlist ds)) g' h'
with runs_all : vars -> heap -> list datum -> vars -> heap -> Prop :=
| RA_nil g h : runs_all g h [] g h
| RA_cons g h d ds g' h' g'' h'' : runs g h d g' h' -> runs_all g' h' ds g'' h'' -> runs_all g h (d :: ds) g'' h''.

(** ** Specification: the variables get the values as in a procedure call, old pairs and other variables stay what the
    expression made of them *)
Definition bound (g : vars) (f : formals) (vs : list value) (h : heap) : Prop :=
  exists ws us, vs = ws ++ us /\ Forall2 (fun x v => g x = Some v) (required f) ws /\
    match rest f with Some y => exists w, g y = Some w /\ listed h w us | None => us = [] end.
Definition parameters (f : formals) : list nat := required f ++ match rest f with Some y => [y] | None => [] end.
Definition kept (h h' : heap) : Prop := firstn (length h) h' = h.
Definition values_defined (f : formals) (vs : list value) (g1 : vars) (h1 : heap) (g' : vars) (h' : heap) : Prop :=
  bound g' f vs h' /\ kept h1 h' /\ forall x, ~ In x (parameters f) -> Nat.even x = true -> g' x = g1 x.
(** the values ws of vs that the variables get.  R7RS: it is an error if there are more or fewer values than variables;
    the program drops those that are too many if there are no variables, or several *)
Definition taken (f : formals) (vs ws : list value) : Prop :=
  match rest f, required f with
  | Some _, _ => ws = vs
  | None, [] => ws = []
  | None, [_] => ws = vs
  | None, _ => exists us, vs = ws ++ us
  end.
(** the values are as many as the variables *)
Definition fitting (f : formals) (vs : list value) : Prop :=
  match rest f with Some _ => length (required f) <= length vs | None => length (required f) = length vs end.
Definition values_form (keyword : datum) (f : formals) (e : datum) : datum := Pair keyword (dlist [form_of f; e]).
End Semantics.
