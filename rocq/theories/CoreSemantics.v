(** A source-level semantics of the core language, independent of the compiler and of
    the machine: environments map names to locations, assignment changes the content of a
    location, a global is an entry of a map from names to values.  This is a specification: it
    cites R7RS, not /repo.

    Evaluation of the operands from right to left, the operator last, is one of
    the orders R7RS 4.1.3 allows; the value of set! and define is unspecified and taken to be the value
    stored.  An error of the program (unbound variable, wrong number of arguments,
    variable used before its initialisation) is the absence of a result. *)
From Coq Require Import ZArith List Bool.
From Verif Require Import Machine Generator.
Import ListNotations.

(** ** Abstract syntax.  A literal is the object found in the program text. *)
Inductive exp :=
| Const (v : val)
| Var (x : nat)
| Lam (xs : list nat) (rest : option nat) (body : list exp)
| App (e : exp) (args : list exp)
| If (a b c : exp)
| Assign (x : nat) (e : exp)
| Define (x : nat) (e : exp)
| Letrec (xs : list nat) (inits : list exp) (body : list exp)
| Seq (es : list exp).

(** ** Values, stores *)
Inductive sval := SNil | SImm (bits : Z) | SLoc (l : nat).
Definition env := list (nat * nat).
Inductive scell :=
| CVar (v : option sval)                 (* a variable, perhaps not initialised yet *)
| CPair (a d : sval)
| CClosure (xs : list nat) (rest : option nat) (body : list exp) (r : env)
| CProcedure (n : nat)
| COther (n : nat).
Record sstore := Store { locs : list scell; globals : nat -> option sval }.

Definition opt {A} (o : option A) : list A := match o with Some x => [x] | None => [] end.
Fixpoint lookup (r : env) (x : nat) : option nat :=
  match r with
  | [] => None
  | (y, l) :: r => if Nat.eqb y x then Some l else lookup r x
  end.
Definition define_global (g : nat -> option sval) (x : nat) (v : sval) : nat -> option sval :=
  fun y => if Nat.eqb y x then Some v else g y.
Definition write (s : sstore) (l : nat) (c : scell) : sstore := Store (update (locs s) l c) (globals s).
Definition add (s : sstore) (c : scell) : sstore := Store (locs s ++ [c]) (globals s).

(** a newly allocated list *)
Fixpoint alloc_list (vs : list sval) (s : sstore) : sval * sstore :=
  match vs with
  | [] => (SNil, s)
  | v :: vs => let '(d, s) := alloc_list vs s in (SLoc (length (locs s)), add s (CPair v d))
  end.
(** new locations for the formals: one per name, the rest name holding a new list of the remaining arguments *)
Fixpoint bind (xs : list nat) (rest : option nat) (vs : list sval) (s : sstore) : option (list nat * sstore) :=
  match xs, vs with
  | _ :: xs, v :: vs =>
    match bind xs rest vs s with
    | Some (ls, s) => Some (length (locs s) :: ls, add s (CVar (Some v)))
    | None => None
    end
  | _ :: _, [] => None
  | [], vs =>
    match rest, vs with
    | Some _, vs => let '(d, s) := alloc_list vs s in Some ([length (locs s)], add s (CVar (Some d)))
    | None, [] => Some ([], s)
    | None, _ :: _ => None
    end
  end.
(** new uninitialised locations, and their initialisation *)
Fixpoint reserve (n : nat) (s : sstore) : list nat * sstore :=
  match n with
  | O => ([], s)
  | S n => let '(ls, s') := reserve n (add s (CVar None)) in (length (locs s) :: ls, s')
  end.
Fixpoint initialise (ls : list nat) (vs : list sval) (s : sstore) : sstore :=
  match ls, vs with
  | l :: ls, v :: vs => write (initialise ls vs s) l (CVar (Some v))
  | _, _ => s
  end.

Section Eval.
(** the value of a literal: immediates denote themselves, an object denotes a location of the store *)
Variable object : nat -> option nat.
Definition literal (v : val) : option sval :=
  match v with
  | VNil => Some SNil
  | VImm z => Some (SImm z)
  | VPtr p => option_map SLoc (object p)
  end.
(** the primitive procedures *)
Variable prim : nat -> sstore -> list sval -> sval -> sstore -> Prop.

Inductive eval : env -> exp -> sstore -> sval -> sstore -> Prop :=
| E_const r v s w : literal v = Some w -> eval r (Const v) s w s
| E_local r x l s v : lookup r x = Some l -> nth_error (locs s) l = Some (CVar (Some v)) -> eval r (Var x) s v s
| E_global r x s v : lookup r x = None -> globals s x = Some v -> eval r (Var x) s v s
| E_lam r xs rest b s : eval r (Lam xs rest b) s (SLoc (length (locs s))) (add s (CClosure xs rest b r))
| E_app r e args s vs s1 v s2 u s3 :
    evals r args s vs s1 -> eval r e s1 v s2 -> apply v vs s2 u s3 -> eval r (App e args) s u s3
| E_true r a b c s v s1 u s2 :
    eval r a s v s1 -> v <> SImm 0 -> eval r b s1 u s2 -> eval r (If a b c) s u s2
| E_false r a b c s s1 u s2 :
    eval r a s (SImm 0) s1 -> eval r c s1 u s2 -> eval r (If a b c) s u s2
| E_assign_local r x l e s v s1 w :
    eval r e s v s1 -> lookup r x = Some l -> nth_error (locs s1) l = Some (CVar (Some w)) ->
    eval r (Assign x e) s v (write s1 l (CVar (Some v)))
| E_assign_global r x e s v s1 w :
    eval r e s v s1 -> lookup r x = None -> globals s1 x = Some w ->
    eval r (Assign x e) s v (Store (locs s1) (define_global (globals s1) x v))
| E_define x e s v s1 :
    eval [] e s v s1 -> eval [] (Define x e) s v (Store (locs s1) (define_global (globals s1) x v))
| E_letrec r xs inits b s ls s0 vs s1 v s2 :
    reserve (length xs) s = (ls, s0) -> evals (combine xs ls ++ r) inits s0 vs s1 -> length vs = length xs ->
    evalb (combine xs ls ++ r) b (initialise ls vs s1) v s2 ->
    eval r (Letrec xs inits b) s v s2
| E_seq r es s v s1 : evalb r es s v s1 -> eval r (Seq es) s v s1
(** the operands, from right to left *)
with evals : env -> list exp -> sstore -> list sval -> sstore -> Prop :=
| E_none r s : evals r [] s [] s
| E_more r e es s vs s1 v s2 : evals r es s vs s1 -> eval r e s1 v s2 -> evals r (e :: es) s (v :: vs) s2
(** a body: all expressions in order, the value of the last *)
with evalb : env -> list exp -> sstore -> sval -> sstore -> Prop :=
| E_last r e s v s1 : eval r e s v s1 -> evalb r [e] s v s1
| E_then r e es s u s1 v s2 : eval r e s u s1 -> evalb r es s1 v s2 -> es <> [] -> evalb r (e :: es) s v s2
with apply : sval -> list sval -> sstore -> sval -> sstore -> Prop :=
| E_closure l xs rest b r vs s ls s1 v s2 :
    nth_error (locs s) l = Some (CClosure xs rest b r) -> bind xs rest vs s = Some (ls, s1) ->
    evalb (combine (xs ++ opt rest) ls ++ r) b s1 v s2 -> apply (SLoc l) vs s v s2
| E_procedure l n vs s v s1 :
    nth_error (locs s) l = Some (CProcedure n) -> prim n s vs v s1 -> apply (SLoc l) vs s v s1.

(** The same evaluation with the space it needs: a call that is not in tail position (t = false) needs
    three entries of control space, a conditional that is not in tail position one; a tail call needs none. *)
Definition cost (t : bool) (k n : nat) : nat := if t then n else k + n.
Inductive evaln : bool -> env -> exp -> sstore -> sval -> sstore -> nat -> Prop :=
| N_const t r v s w : literal v = Some w -> evaln t r (Const v) s w s 0
| N_local t r x l s v : lookup r x = Some l -> nth_error (locs s) l = Some (CVar (Some v)) -> evaln t r (Var x) s v s 0
| N_global t r x s v : lookup r x = None -> globals s x = Some v -> evaln t r (Var x) s v s 0
| N_lam t r xs rest b s : evaln t r (Lam xs rest b) s (SLoc (length (locs s))) (add s (CClosure xs rest b r)) 0
| N_app t r e args s vs s1 v s2 u s3 n1 n2 n3 :
    evalsn r args s vs s1 n1 -> evaln false r e s1 v s2 n2 -> applyn v vs s2 u s3 n3 ->
    evaln t r (App e args) s u s3 (max n1 (max n2 (cost t 3 n3)))
| N_true t r a b c s v s1 u s2 n1 n2 :
    evaln false r a s v s1 n1 -> v <> SImm 0 -> evaln t r b s1 u s2 n2 -> evaln t r (If a b c) s u s2 (max n1 (cost t 1 n2))
| N_false t r a b c s s1 u s2 n1 n2 :
    evaln false r a s (SImm 0) s1 n1 -> evaln t r c s1 u s2 n2 -> evaln t r (If a b c) s u s2 (max n1 (cost t 1 n2))
| N_assign_local t r x l e s v s1 w n :
    evaln false r e s v s1 n -> lookup r x = Some l -> nth_error (locs s1) l = Some (CVar (Some w)) ->
    evaln t r (Assign x e) s v (write s1 l (CVar (Some v))) n
| N_assign_global t r x e s v s1 w n :
    evaln false r e s v s1 n -> lookup r x = None -> globals s1 x = Some w ->
    evaln t r (Assign x e) s v (Store (locs s1) (define_global (globals s1) x v)) n
| N_define t x e s v s1 n :
    evaln false [] e s v s1 n -> evaln t [] (Define x e) s v (Store (locs s1) (define_global (globals s1) x v)) n
| N_letrec t r xs inits b s ls s0 vs s1 v s2 n1 n2 :
    reserve (length xs) s = (ls, s0) -> evalsn (combine xs ls ++ r) inits s0 vs s1 n1 -> length vs = length xs ->
    evalbn true (combine xs ls ++ r) b (initialise ls vs s1) v s2 n2 ->
    evaln t r (Letrec xs inits b) s v s2 (max n1 (cost t 3 n2))
| N_seq t r es s v s1 n : evalbn t r es s v s1 n -> evaln t r (Seq es) s v s1 n
with evalsn : env -> list exp -> sstore -> list sval -> sstore -> nat -> Prop :=
| N_none r s : evalsn r [] s [] s 0
| N_more r e es s vs s1 v s2 n1 n2 :
    evalsn r es s vs s1 n1 -> evaln false r e s1 v s2 n2 -> evalsn r (e :: es) s (v :: vs) s2 (max n1 n2)
with evalbn : bool -> env -> list exp -> sstore -> sval -> sstore -> nat -> Prop :=
| N_last t r e s v s1 n : evaln t r e s v s1 n -> evalbn t r [e] s v s1 n
| N_then t r e es s u s1 v s2 n1 n2 :
    evaln false r e s u s1 n1 -> evalbn t r es s1 v s2 n2 -> es <> [] -> evalbn t r (e :: es) s v s2 (max n1 n2)
with applyn : sval -> list sval -> sstore -> sval -> sstore -> nat -> Prop :=
| N_closure l xs rest b r vs s ls s1 v s2 n :
    nth_error (locs s) l = Some (CClosure xs rest b r) -> bind xs rest vs s = Some (ls, s1) ->
    evalbn true (combine (xs ++ opt rest) ls ++ r) b s1 v s2 n -> applyn (SLoc l) vs s v s2 n
| N_procedure l k vs s v s1 :
    nth_error (locs s) l = Some (CProcedure k) -> prim k s vs v s1 -> applyn (SLoc l) vs s v s1 0.

(** a program is a list of top-level expressions and definitions *)
Inductive evalp : list exp -> sstore -> list sval -> sstore -> Prop :=
| P_nil s : evalp [] s [] s
| P_cons e es s v s1 vs s2 : eval [] e s v s1 -> evalp es s1 vs s2 -> evalp (e :: es) s (v :: vs) s2.
End Eval.

(** ** Concrete syntax: which expression a form denotes (R7RS 4.1, 5.3) *)
Inductive formals : form -> list nat -> option nat -> Prop :=
| Fm_nil : formals (FAtom VNil) [] None
| Fm_rest x : formals (FId x) [] (Some x)
| Fm_cons p x d xs r : formals d xs r -> formals (FPair p (FId x) d) (x :: xs) r.

Section Denotes.
(** the object used as the value of an if without alternative and of a define without expression *)
Variable unspecified : val.
(** the identifiers bound to keywords at top level *)
Variable kw : nat -> option keyword.
(** a form is a use of keyword k when its operator is an identifier bound to k and not shadowed by a local variable; [bound] lists the enclosing scopes, [] at top level *)
Definition uses (bound : list (list nat)) (a : form) (k : keyword) : Prop :=
  exists x, a = FId x /\ ~ In x (concat bound) /\ kw x = Some k.
Inductive denotes : list (list nat) -> form -> exp -> Prop :=
| D_atom bound v : denotes bound (FAtom v) (Const v)
| D_id bound x : denotes bound (FId x) (Var x)
| D_quote bound p a q d r : uses bound a KQuote -> denotes bound (FPair p a (FPair q d r)) (Const (addr d))
| D_lambda bound p a q fs b xs rest es :
    uses bound a KLambda -> formals fs xs rest -> denotesb ((xs ++ opt rest) :: bound) b es ->
    denotes bound (FPair p a (FPair q fs b)) (Lam xs rest es)
| D_if bound p a q1 f1 q2 f2 q3 f3 r e1 e2 e3 :
    uses bound a KIf -> denotes bound f1 e1 -> denotes bound f2 e2 -> denotes bound f3 e3 ->
    denotes bound (FPair p a (FPair q1 f1 (FPair q2 f2 (FPair q3 f3 r)))) (If e1 e2 e3)
| D_if2 bound p a q1 f1 q2 f2 e1 e2 :
    uses bound a KIf -> denotes bound f1 e1 -> denotes bound f2 e2 ->
    denotes bound (FPair p a (FPair q1 f1 (FPair q2 f2 (FAtom VNil)))) (If e1 e2 (Const unspecified))
| D_set bound p a q1 x q2 f r e :
    uses bound a KSet -> In x (concat bound) \/ kw x = None -> denotes bound f e ->
    denotes bound (FPair p a (FPair q1 (FId x) (FPair q2 f r))) (Assign x e)
| D_define p a q1 x q2 f r e :
    uses [] a KDefine -> kw x = None -> denotes [] f e ->
    denotes [] (FPair p a (FPair q1 (FId x) (FPair q2 f r))) (Define x e)
| D_define1 p a q1 x :
    uses [] a KDefine -> kw x = None -> denotes [] (FPair p a (FPair q1 (FId x) (FAtom VNil))) (Define x (Const unspecified))
| D_letrec bound p a q bs b xs inits es :
    uses bound a KLetrec -> denotesl (xs :: bound) bs xs inits -> denotesb (xs :: bound) b es ->
    denotes bound (FPair p a (FPair q bs b)) (Letrec xs inits es)
| D_begin bound p a b es :
    uses bound a KBegin -> denotesb bound b es -> denotes bound (FPair p a b) (Seq es)
| D_call bound p a d e es :
    (forall k, ~ uses bound a k) -> denotes bound a e -> denotess bound d es -> denotes bound (FPair p a d) (App e es)
(** operands *)
with denotess : list (list nat) -> form -> list exp -> Prop :=
| D_none bound : denotess bound (FAtom VNil) []
| D_more bound p a d e es : denotes bound a e -> denotess bound d es -> denotess bound (FPair p a d) (e :: es)
(** bodies *)
with denotesb : list (list nat) -> form -> list exp -> Prop :=
| D_last bound p a e : denotes bound a e -> denotesb bound (FPair p a (FAtom VNil)) [e]
| D_then bound p a d e es : denotes bound a e -> denotesb bound d es -> denotesb bound (FPair p a d) (e :: es)
(** the bindings ((name init) ...) of a letrec *)
with denotesl : list (list nat) -> form -> list nat -> list exp -> Prop :=
| D_lnil bound : denotesl bound (FAtom VNil) [] []
| D_lcons bound p q1 x q2 f r d e xs es :
    denotes bound f e -> denotesl bound d xs es ->
    denotesl bound (FPair p (FPair q1 (FId x) (FPair q2 f r)) d) (x :: xs) (e :: es).
End Denotes.
