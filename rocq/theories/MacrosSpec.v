(** What the macros of Macros.v should do.  The first part says what an expansion computes: the
    meaning of the few forms that occur in expansions.  The second part is the specification, the
    rules of R7RS 4.2.2 and 5.3.3 and of the SRFIs 8, 16 and 31, which do not mention expansions.

    The forms of the program inside a macro use are any forms without aliases ([plain]); [user e r s vs s'] is that
    e in the environment r and the state s gives the values vs and leaves the state s', with no
    assumption about it.  Variables that a macro puts in ([t]) are never assigned and are kept
    apart from those of the program ([r]); aliases are not identifiers of the program (C58). *)
From Coq Require Import String List Bool Arith.
From Verif Require Import SyntaxRules Macros.
Import ListNotations.
Local Open Scope nat_scope.

Fixpoint plain (d : datum) : bool :=
  match d with
  | Id x => Nat.even x
  | Pair a b => plain a && plain b
  | Vec l => plain l
  | _ => true
  end.
(** y is x or an alias of x *)
Inductive refers (x : nat) : nat -> Prop :=
| R_self : refers x x
| R_alias u y : refers x y -> refers x (alias u y).
(** h is an identifier put in by a macro, and stands for the symbol k *)
Definition is (k : string) (h : nat) : Prop := refers (sym k) h /\ Nat.odd h = true.
(** The macros that occur in expansions *)
Definition library_macro (k : string) : option string :=
  if string_dec k "let-values" then Some let_values_text
  else if string_dec k "let*-values" then Some let_star_values_text
  else None.

(** Formal parameters: the variables, and the one for the rest *)
Record formals := Formals { required : list nat; rest : option nat }.
Fixpoint formals_form (xs : list nat) (rest : option nat) : datum :=
  match xs with
  | [] => match rest with Some y => Id y | None => Nil end
  | x :: xs => Pair (Id x) (formals_form xs rest)
  end.
Definition form_of (f : formals) : datum := formals_form (required f) (rest f).

Section Semantics.
Variables value state loc : Type.
Definition env := nat -> option loc.
Variable user : datum -> env -> state -> list value -> state -> Prop.
(** the definitions and expressions of a body *)
Variable user_body : datum -> env -> state -> list value -> state -> Prop.
(** a new location holding a value; a new list *)
Variable alloc : state -> value -> loc * state.
Variable list_of : state -> list value -> value * state.
(** changing a location; the value of a variable before its initialisation; the procedure that
    (lambda formals . body) creates *)
Variable assign : state -> loc -> value -> state.
Variable undefined : value.
Variable closure : datum -> datum -> env -> state -> value * state.

Definition extend (r : env) (x : nat) (l : loc) : env := fun y => if y =? x then Some l else r y.
(** the values that the variables of a parameter list get *)
Inductive takes : formals -> list value -> state -> list (nat * value) -> state -> Prop :=
| T_all xs vs s : length xs = length vs -> takes (Formals xs None) vs s (combine xs vs) s
| T_rest xs y vs ws s w s1 : length xs = length vs -> list_of s ws = (w, s1) ->
    takes (Formals xs (Some y)) (vs ++ ws) s (combine xs vs ++ [(y, w)]) s1.
(** new locations for the variables of the program *)
Fixpoint bind (bs : list (nat * value)) (r : env) (s : state) : env * state :=
  match bs with
  | [] => (r, s)
  | (x, v) :: bs => let '(l, s1) := alloc s v in bind bs (extend r x l) s1
  end.

(** ** What an expansion computes *)
Definition tmps := nat -> option value.
Definition set (t : tmps) (x : nat) (v : value) : tmps := fun y => if y =? x then Some v else t y.
(** variables of the program and of macros *)
Fixpoint enter (bs : list (nat * value)) (t : tmps) (r : env) (s : state) : tmps * env * state :=
  match bs with
  | [] => (t, r, s)
  | (x, v) :: bs => if Nat.odd x then enter bs (set t x v) r s
                    else let '(l, s1) := alloc s v in enter bs t (extend r x l) s1
  end.
(** u: the number of the next macro use *)
Inductive ev : nat -> tmps -> env -> datum -> state -> list value -> state -> Prop :=
| E_user u t r e s vs s1 : plain e = true -> user e r s vs s1 -> ev u t r e s vs s1
| E_tmp u t r x v s : Nat.odd x = true -> t x = Some v -> ev u t r (Id x) s [v] s
(** (lambda formals . body) *)
| E_lambda u t r h fs body w s s1 : is "lambda" h -> plain fs = true -> plain body = true -> closure fs body r s = (w, s1) ->
    ev u t r (Pair (Id h) (Pair fs body)) s [w] s1
(** (call-with-values (lambda () e) (lambda formals . body)) *)
| E_values u t r h l1 l2 e f body s vs s1 bs s2 t' r' s3 ws s4 :
    is "call-with-values" h -> is "lambda" l1 -> is "lambda" l2 ->
    ev u t r e s vs s1 -> takes f vs s1 bs s2 -> enter bs t r s2 = (t', r', s3) -> evb u t' r' body s3 ws s4 ->
    ev u t r (dlist [Id h; dlist [Id l1; Nil; e]; Pair (Id l2) (Pair (form_of f) body)]) s ws s4
(** (let ((x e) ...) . body) *)
| E_let u t r h xs es body s vs s1 t' r' s2 ws s3 : is "let" h -> length xs = length es ->
    evs u t r es s vs s1 -> enter (combine xs vs) t r s1 = (t', r', s2) -> evb u t' r' body s2 ws s3 ->
    ev u t r (Pair (Id h) (Pair (dlist (map (fun '(x, e) => dlist [Id x; e]) (combine xs es))) body)) s ws s3
(** (letrec ((x e)) body), x a variable of the program *)
| E_letrec u t r h x e body l s s1 v s2 vs s3 : is "letrec" h -> Nat.odd x = false -> alloc s undefined = (l, s1) ->
    ev u t (extend r x l) e s1 [v] s2 -> ev u t (extend r x l) body (assign s2 l v) vs s3 ->
    ev u t r (dlist [Id h; dlist [dlist [Id x; e]]; body]) s vs s3
(** a use of a macro means what its expansion means *)
| E_macro u t r k text h args d s vs s1 : is k h -> library_macro k = Some text -> expands text u (Pair (Id h) args) d ->
    ev (S u) t r d s vs s1 -> ev u t r (Pair (Id h) args) s vs s1
(** operands, from right to left *)
with evs : nat -> tmps -> env -> list datum -> state -> list value -> state -> Prop :=
| ES_nil u t r s : evs u t r [] s [] s
| ES_cons u t r e es s vs s1 v s2 : evs u t r es s vs s1 -> ev u t r e s1 [v] s2 -> evs u t r (e :: es) s (v :: vs) s2
(** bodies *)
with evb : nat -> tmps -> env -> datum -> state -> list value -> state -> Prop :=
| EB_user u t r body s vs s1 : plain body = true -> user_body body r s vs s1 -> evb u t r body s vs s1
| EB_begin u t r h body s vs s1 : is "begin" h -> evb u t r body s vs s1 -> evb u t r (dlist [Pair (Id h) body]) s vs s1
| EB_one u t r e s vs s1 : plain e = false -> ev u t r e s vs s1 -> evb u t r (dlist [e]) s vs s1.
Scheme ev_mut := Minimality for ev Sort Prop with evs_mut := Minimality for evs Sort Prop with evb_mut := Minimality for evb Sort Prop.

(** ** Specification *)
(** let-values, R7RS 4.2.2: the inits in the outer environment, here from left to right *)
Inductive inits : list (formals * datum) -> env -> state -> list (nat * value) -> state -> Prop :=
| IN_nil r s : inits [] r s [] s
| IN_cons f e bs r s vs s1 cs s2 ds s3 : user e r s vs s1 -> takes f vs s1 cs s2 -> inits bs r s2 ds s3 ->
    inits ((f, e) :: bs) r s (cs ++ ds) s3.
Definition let_values_means (bs : list (formals * datum)) (body : datum) (r : env) (s : state) (ws : list value) (s' : state) : Prop :=
  exists cs s1 r' s2, inits bs r s cs s1 /\ bind cs r s1 = (r', s2) /\ user_body body r' s2 ws s'.
(** let*-values: each init in the environment of those before *)
Inductive let_star_values_means : list (formals * datum) -> datum -> env -> state -> list value -> state -> Prop :=
| LS_body body r s ws s1 : user_body body r s ws s1 -> let_star_values_means [] body r s ws s1
| LS_bind f e bs body r s vs s1 cs s2 r' s3 ws s4 : user e r s vs s1 -> takes f vs s1 cs s2 -> bind cs r s2 = (r', s3) ->
    let_star_values_means bs body r' s3 ws s4 -> let_star_values_means ((f, e) :: bs) body r s ws s4.
(** receive, SRFI 8 *)
Definition receive_means (f : formals) (e : datum) (body : datum) (r : env) (s : state) (ws : list value) (s' : state) : Prop :=
  exists vs s1 cs s2 r' s3, user e r s vs s1 /\ takes f vs s1 cs s2 /\ bind cs r s2 = (r', s3) /\ user_body body r' s3 ws s'.
(** rec, SRFI 31: the value of the expression in an environment in which the name stands for that value *)
Definition rec_means (x : nat) (make : env -> state -> value -> state -> Prop) (r : env) (s : state) (ws : list value) (s' : state) : Prop :=
  exists l s1 v s2, alloc s undefined = (l, s1) /\ make (extend r x l) s1 v s2 /\ ws = [v] /\ s' = assign s2 l v.
End Semantics.
Arguments T_all {value state}. Arguments T_rest {value state}.

(** ** Concrete syntax *)
Definition clause (b : formals * datum) : datum := dlist [form_of (fst b); snd b].
Definition formals_ok (f : formals) : Prop :=
  Forall (fun x => Nat.even x = true) (required f) /\ match rest f with Some y => Nat.even y = true | None => True end.
Definition clause_ok (b : formals * datum) : Prop := formals_ok (fst b) /\ plain (snd b) = true.
