(** case-lambda (library/srfi-16.ss:5-25), and what R7RS 4.2.9 says about it.  The text of the rules is in Macros.v.

    The rules expand into a procedure with a local macro, whose rules are themselves part of the expansion.  The bodies of the
    program are any data without aliases; [user_body body r s a] is that a body in the environment r and the state s
    has the outcome a, of any type, with no assumption about it. *)
From Coq Require Import String List Bool Arith Cantor.
From Verif Require Import SyntaxRules Macros MacrosSpec Guard.
Import ListNotations.
Local Open Scope nat_scope.

(** ** Identifiers made by rename *)
(** An alias that is not bound itself stands for what the identifier renamed stands for (library/meevax.ss:30-40, see C58) *)
Fixpoint find_ {A} (fuel : nat) (m : nat -> option A) (x : nat) : option A :=
  match m x with
  | Some a => Some a
  | None => match fuel with
            | 0 => None
            | S n => if Nat.even x then None else find_ n m (snd (of_nat (Nat.div2 x)))
            end
  end.
Definition find {A} (m : nat -> option A) (x : nat) : option A := find_ x m x.
(** ** Rules that are part of an expansion *)
(** One use of a macro with the rules (syntax-rules ellipsis () . rules), srfi-149.ss:280-300; identifiers are compared by the symbols
    they stand for *)
Definition inner_expands (ellipsis : nat) (rules : list (datum * datum)) (u : nat) (form d : datum) : Prop :=
  exists fuel e n, transformer compare (Id (sym "_")) (Id ellipsis) Nil fuel rules = Ok e /\
    forall m, n <= m -> expand (ren u) compare (fun _ => Nil) m e form = Ok d.

Section Semantics.
Variables value state loc answer : Type.
Notation env := (env loc).
Variable user_body : datum -> env -> state -> answer -> Prop.
Variable alloc : state -> value -> loc * state.
Variable list_of : state -> list value -> value * state.
(** what calling error does *)
Variable error : state -> answer.
Notation takes := (takes value state list_of).
Notation bind := (bind value state loc alloc).

(** ** What an expansion computes *)
(** What a variable of the macro holds: the list of the arguments, which the program cannot reach and which is therefore not part of the state; or
    a number *)
Inductive held := Arguments (vs : list value) | Number (n : nat).
Definition tmps := nat -> option held.
(** local macros *)
Definition macros := nat -> option (nat * list (datum * datum)).
Definition bound {A} (m : nat -> option A) (x : nat) (a : A) : nat -> option A := fun y => if y =? x then Some a else m y.
(** the elements of a list *)
Fixpoint count (d : datum) : option nat :=
  match d with Nil => Some 0 | Pair _ d => option_map S (count d) | _ => None end.
(** = and >= *)
Inductive decides : nat -> nat -> nat -> bool -> Prop :=
| D_equal h m n : is "=" h -> decides h m n (m =? n)
| D_least h m n : is ">=" h -> decides h m n (n <=? m).
Inductive runs : nat -> macros -> tmps -> env -> datum -> state -> answer -> Prop :=
(** (let ((x (length y))) body) *)
| R_let u m t r h l x y vs body s a : is "let" h -> is "length" l -> Nat.odd x = true -> find t y = Some (Arguments vs) ->
    runs u m (bound t x (Number (length vs))) r body s a ->
    runs u m t r (dlist [Id h; dlist [dlist [Id x; dlist [Id l; Id y]]]; body]) s a
(** (letrec-syntax ((c (syntax-rules ellipsis () . rules))) body) *)
| R_syntax u m t r h k c ellipsis rules body s a : is "letrec-syntax" h -> is "syntax-rules" k -> Nat.odd c = true ->
    runs u (bound m c (ellipsis, rules_in rules)) t r body s a ->
    runs u m t r (dlist [Id h; dlist [dlist [Id c; Pair (Id k) (Pair (Id ellipsis) (Pair Nil rules))]]; body]) s a
(** (if (op x (length (quote d))) e1 e2) *)
| R_if u m t r h o x l q d n k b e1 e2 s a : is "if" h -> is "length" l -> is "quote" q -> find t x = Some (Number n) -> count d = Some k ->
    decides o n k b -> runs u m t r (if b then e1 else e2) s a ->
    runs u m t r (dlist [Id h; dlist [Id o; Id x; dlist [Id l; dlist [Id q; d]]]; e1; e2]) s a
(** (apply (lambda formals . body) x) *)
| R_apply u m t r h l f body x vs s bs s1 r' s2 a : is "apply" h -> is "lambda" l -> plain body = true -> find t x = Some (Arguments vs) ->
    takes f vs s bs s1 -> bind bs r s1 = (r', s2) -> user_body body r' s2 a ->
    runs u m t r (dlist [Id h; Pair (Id l) (Pair (form_of f) body); Id x]) s a
(** (error message) *)
| R_error u m t r h n s : is "error" h -> runs u m t r (dlist [Id h; Other n]) s (error s)
(** a use of a local macro *)
| R_macro u m t r h args ellipsis rules d s a : find m h = Some (ellipsis, rules) -> inner_expands ellipsis rules u (Pair (Id h) args) d ->
    runs (S u) m t r d s a -> runs u m t r (Pair (Id h) args) s a.
(** a call of the value of (lambda x body) with the arguments vs *)
Inductive calls : nat -> env -> datum -> list value -> state -> answer -> Prop :=
| C_lambda u r h x body vs s a : is "lambda" h -> Nat.odd x = true -> runs u (fun _ => None) (bound (fun _ => None) x (Arguments vs)) r body s a ->
    calls u r (dlist [Id h; Id x; body]) vs s a.

(** ** Specification *)
(** R7RS 4.2.9: "the first clause for which the arguments agree with formals is selected, where agreement is specified as for the formals of a lambda
    expression.  The variables of formals are bound to fresh locations, the values of the arguments are stored in those locations, the body is
    evaluated in the extended environment" *)
Definition agrees (f : formals) (n : nat) : Prop :=
  match rest f with None => n = length (required f) | Some _ => length (required f) <= n end.
Inductive case_lambda_means : list (formals * list datum) -> env -> list value -> state -> answer -> Prop :=
| CL_none r vs s : case_lambda_means [] r vs s (error s)
| CL_this f body cs r vs s bs s1 r' s2 a : agrees f (length vs) -> takes f vs s bs s1 -> bind bs r s1 = (r', s2) -> user_body (dlist body) r' s2 a ->
    case_lambda_means ((f, body) :: cs) r vs s a
| CL_next f body cs r vs s a : ~ agrees f (length vs) -> case_lambda_means cs r vs s a -> case_lambda_means ((f, body) :: cs) r vs s a.
End Semantics.

(** ** Concrete syntax *)
Definition clause_form (c : formals * list datum) : datum := Pair (form_of (fst c)) (dlist (snd c)).
Definition clause_ok (c : formals * list datum) : Prop := formals_ok (fst c) /\ plain (dlist (snd c)) = true.
Definition case_lambda_form (keyword : datum) (cs : list (formals * list datum)) : datum := Pair keyword (dlist (map clause_form cs)).
