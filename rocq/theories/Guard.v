(** guard (library/srfi-34.ss:71-123), and what R7RS 4.2.7 says about it.

    An expression of the program is given its meaning as a function of the dynamic environment, of the continuation
    and of the state, with no assumption about it; so raise and call-with-current-continuation may occur anywhere.  A dynamic environment is of any
    type; [push] installs an exception handler, [reroot] passes from one dynamic environment to
    another and may run thunks of dynamic-wind. *)
From Coq Require Import String List Bool Arith Cantor.
From Verif Require Import SyntaxRules Macros MacrosSpec.
Import ListNotations.
Local Open Scope nat_scope.

(** ** The rules *)
(** srfi-34.ss:72-103, without the list of literals *)
Definition guard_aux_text : string := "
            (((guard-aux reraise (else result1 result2 ...))
              (begin result1 result2 ...))
             ((guard-aux reraise (test => result))
              (let ((temp test))
                (if temp
                    (result temp)
                    reraise)))
             ((guard-aux reraise (test => result)
                         clause1 clause2 ...)
              (let ((temp test))
                (if temp
                    (result temp)
                    (guard-aux reraise clause1 clause2 ...))))
             ((guard-aux reraise (test))
              (or test reraise))
             ((guard-aux reraise (test) clause1 clause2 ...)
              (let ((temp test))
                (if temp
                    temp
                    (guard-aux reraise clause1 clause2 ...))))
             ((guard-aux reraise (test result1 result2 ...))
              (if test
                  (begin result1 result2 ...)
                  reraise))
             ((guard-aux reraise
                         (test result1 result2 ...)
                         clause1 clause2 ...)
              (if test
                  (begin result1 result2 ...)
                  (guard-aux reraise clause1 clause2 ...))))".
(** srfi-34.ss:105-123 *)
Definition guard_text : string := "
            (((guard (var clause ...) e1 e2 ...)
              ((call-with-current-continuation
                 (lambda (guard-k)
                   (with-exception-handler
                     (lambda (condition)
                       ((call-with-current-continuation
                          (lambda (handler-k)
                            (guard-k (lambda ()
                                       (let ((var condition))
                                         (guard-aux (handler-k (lambda ()
                                                                 (raise-continuable condition)))
                                                    clause ...))))))))
                     (lambda ()
                       (call-with-values
                         (lambda () e1 e2 ...)
                         (lambda args
                           (guard-k (lambda ()
                                      (apply values args))))))))))))".
(** The literals of guard-aux *)
Definition aux_literals : datum := dlist [Id (sym "else"); Id (sym "=>")].
(** The symbol that an identifier stands for, and compare where the macro is used: identifiers that stand for one symbol
    (the program does not bind else and => itself) *)
Fixpoint root_ (fuel x : nat) : nat :=
  match fuel with
  | 0 => x
  | S n => if Nat.even x then x else root_ n (snd (of_nat (Nat.div2 x)))
  end.
Definition root (x : nat) : nat := root_ x x.
Definition compare (a b : datum) : bool := match a, b with Id x, Id y => root x =? root y | _, _ => false end.
Definition aux_expands (u : nat) (form d : datum) : Prop :=
  exists e n, transformer cmp (Id (sym "_")) (Id (sym "...")) aux_literals 300 (rules_of guard_aux_text) = Ok e /\
    forall m, n <= m -> expand (ren u) compare (fun _ => Nil) m e form = Ok d.

(** The variables that the rules bind themselves *)
Definition own (x : nat) : Prop := exists k, In k ["temp"; "guard-k"; "condition"; "handler-k"; "args"]%string /\ is k x.

Section Semantics.
Variables value state loc dyn answer : Type.
Definition cont : Type := list value -> state -> answer.
Definition computation : Type := dyn -> cont -> state -> answer.
Notation env := (env loc).
(** expressions, sequences of expressions, and bodies of the program *)
Variable user user_seq user_body : datum -> env -> computation.
(** calling a procedure; new locations; which values count as true; raise-continuable; the wrong number of values *)
Variable call : value -> list value -> computation.
Variable alloc : state -> value -> loc * state.
Variable truth : value -> bool.
Variable raise_continuable : value -> computation.
Variable wrong : state -> answer.
Variable push : dyn -> (value -> computation) -> dyn.
Variable reroot : dyn -> dyn -> (state -> answer) -> state -> answer.
Definition single (f : value -> state -> answer) : cont := fun vs s => match vs with [v] => f v s | _ => wrong s end.

(** ** What an expansion computes *)
(** What a variable of the macro holds: a value, several values, or a continuation with its dynamic environment *)
Inductive held := Held (v : value) | Values (vs : list value) | Escape (d : dyn) (k : cont).
Definition tmps := nat -> option held.
Definition set (t : tmps) (x : nat) (v : held) : tmps := fun y => if y =? x then Some v else t y.
Inductive means : nat -> tmps -> env -> datum -> computation -> Prop :=
| M_user u t r e : plain e = true -> means u t r e (user e r)
| M_tmp u t r x v : own x -> t x = Some (Held v) -> means u t r (Id x) (fun d k s => k [v] s)
| M_begin u t r h es : is "begin" h -> plain es = true -> means u t r (Pair (Id h) es) (user_seq es r)
| M_if u t r h e1 e2 e3 c1 c2 c3 : is "if" h -> means u t r e1 c1 -> means u t r e2 c2 -> means u t r e3 c3 ->
    means u t r (dlist [Id h; e1; e2; e3]) (fun d k s => c1 d (single (fun v s => if truth v then c2 d k s else c3 d k s)) s)
| M_or u t r h e1 e2 c1 c2 : is "or" h -> means u t r e1 c1 -> means u t r e2 c2 ->
    means u t r (dlist [Id h; e1; e2]) (fun d k s => c1 d (single (fun v s => if truth v then k [v] s else c2 d k s)) s)
(** (let ((x e)) body), x a variable of the macro, or of the program *)
| M_let u t r h x e body c cb : is "let" h -> own x -> means u t r e c -> (forall v, means u (set t x (Held v)) r body (cb v)) ->
    means u t r (dlist [Id h; dlist [dlist [Id x; e]]; body]) (fun d k s => c d (single (fun v s => cb v d k s)) s)
| M_bind u t r h x e body c cb : is "let" h -> Nat.even x = true -> means u t r e c -> (forall l, means u t (extend loc r x l) body (cb l)) ->
    means u t r (dlist [Id h; dlist [dlist [Id x; e]]; body])
      (fun d k s => c d (single (fun v s => let '(l, s1) := alloc s v in cb l d k s1)) s)
(** (e x), e a procedure of the program and x a variable of the macro: operators are evaluated last *)
| M_call u t r e x v : plain e = true -> own x -> t x = Some (Held v) ->
    means u t r (dlist [e; Id x]) (fun d k s => user e r d (single (fun f s => call f [v] d k s)) s)
(** ((call-with-current-continuation (lambda (x) body))): the value of the inner call is called without arguments *)
| M_callcc u t r h l x body cb : is "call-with-current-continuation" h -> is "lambda" l -> own x ->
    (forall d k, means u (set t x (Escape d k)) r body (cb d k)) ->
    means u t r (dlist [dlist [Id h; dlist [Id l; dlist [Id x]; body]]]) (fun d k s => cb d k d (single (fun f s => call f [] d k s)) s)
(** (x (lambda () body)), x the continuation of such an inner call: the procedure is called there *)
| M_escape u t r x d0 k0 l body cb : own x -> t x = Some (Escape d0 k0) -> is "lambda" l -> means u t r body cb ->
    means u t r (dlist [Id x; dlist [Id l; Nil; body]]) (fun d k s => reroot d d0 (cb d0 k0) s)
(** (with-exception-handler (lambda (x) handler) (lambda () body)): body in a new extent with the handler *)
| M_handler u t r h l1 l2 x handler body ch cb : is "with-exception-handler" h -> is "lambda" l1 -> is "lambda" l2 -> own x ->
    (forall v, means u (set t x (Held v)) r handler (ch v)) -> means u t r body cb ->
    means u t r (dlist [Id h; dlist [Id l1; dlist [Id x]; handler]; dlist [Id l2; Nil; body]])
      (fun d k s => reroot d (push d ch) (cb (push d ch) (fun vs => reroot (push d ch) d (k vs))) s)
(** (call-with-values (lambda () . body) (lambda x e)) *)
| M_values u t r h l1 l2 body x e ce : is "call-with-values" h -> is "lambda" l1 -> is "lambda" l2 -> plain body = true -> own x ->
    (forall vs, means u (set t x (Values vs)) r e (ce vs)) ->
    means u t r (dlist [Id h; Pair (Id l1) (Pair Nil body); dlist [Id l2; Id x; e]]) (fun d k s => user_body body r d (fun vs => ce vs d k) s)
(** (apply values x) *)
| M_apply u t r h f x vs : is "apply" h -> is "values" f -> own x -> t x = Some (Values vs) ->
    means u t r (dlist [Id h; Id f; Id x]) (fun d k s => k vs s)
(** (raise-continuable x) *)
| M_raise u t r h x v : is "raise-continuable" h -> own x -> t x = Some (Held v) -> means u t r (dlist [Id h; Id x]) (raise_continuable v)
(** a use of a macro means what its expansion means *)
| M_macro u t r h args d c : is "guard-aux" h -> aux_expands u (Pair (Id h) args) d -> means (S u) t r d c -> means u t r (Pair (Id h) args) c.

(** ** Specification *)
(** R7RS 4.2.1: the clauses of cond *)
Inductive clause :=
| Else (body : list datum)
| Arrow (test result : datum)
| Test (test : datum)
| Body (test : datum) (body : list datum).
Definition clause_form (c : clause) : datum :=
  match c with
  | Else b => Pair (Id (sym "else")) (dlist b)
  | Arrow e f => dlist [e; Id (sym "=>"); f]
  | Test e => dlist [e]
  | Body e b => Pair e (dlist b)
  end.
(** [otherwise] if no clause applies *)
Fixpoint clauses_mean (cs : list clause) (r : env) (otherwise : computation) : computation :=
  match cs with
  | [] => otherwise
  | Else b :: _ => user_seq (dlist b) r
  | Arrow e f :: cs => fun d k => user e r d (single (fun v s => if truth v then user f r d (single (fun p => call p [v] d k)) s else clauses_mean cs r otherwise d k s))
  | Test e :: cs => fun d k => user e r d (single (fun v s => if truth v then k [v] s else clauses_mean cs r otherwise d k s))
  | Body e b :: cs => fun d k => user e r d (single (fun v s => if truth v then user_seq (dlist b) r d k s else clauses_mean cs r otherwise d k s))
  end.
(** R7RS 4.2.7: the body is evaluated with a handler that, given an object, returns to the guard expression, binds the variable to
    the object and evaluates the clauses there; if no clause applies, the object is raised again where the handler was
    called.  When the body returns, its values are those of the guard expression. *)
Definition guard_means (x : nat) (cs : list clause) (body : datum) (r : env) : computation := fun d k =>
  let handler v d1 k1 :=
    reroot d1 d (fun s => let '(l, s) := alloc s v in
      clauses_mean cs (extend loc r x l) (fun d2 _ => reroot d2 d1 (raise_continuable v d1 k1)) d k s) in
  let inside := push d handler in
  reroot d inside (user_body body r inside (fun vs => reroot inside d (k vs))).

(** ** Concrete syntax *)
Definition not_identifier (k : string) (d : datum) : Prop := d <> Id (sym k).
Definition clause_ok (c : clause) : Prop :=
  match c with
  | Else b => plain (dlist b) = true /\ b <> []
  | Arrow e f => plain e = true /\ plain f = true /\ not_identifier "else" e
  | Test e => plain e = true
  | Body e b => plain e = true /\ plain (dlist b) = true /\ not_identifier "else" e /\ match b with [] => False | a :: _ => not_identifier "=>" a end
  end.
(** else comes last *)
Fixpoint clauses_ok (cs : list clause) : Prop :=
  match cs with
  | [] => True
  | c :: cs => clause_ok c /\ match c with Else _ => cs = [] | _ => True end /\ clauses_ok cs
  end.
Definition guard_form (keyword : datum) (x : nat) (cs : list clause) (body : list datum) : datum :=
  Pair keyword (Pair (Pair (Id x) (dlist (map clause_form cs))) (dlist body)).
End Semantics.
