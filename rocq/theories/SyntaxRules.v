(** * syntax-rules: library/srfi-149.ss

    syntax-rules is a compiler.  Its transformer ([transformer], syntax-rules-transformer
    of library/srfi-149.ss:70-295) turns rules into the source text of a procedure that
    takes a form apart.  This file models the compiler, and [eval], the meaning of the
    procedures that it builds.

    Simplifications.  Forms are trees ([datum]): no cycles; the elements of a vector are
    kept as a list.  The text that the compiler builds is abstract syntax ([expr]): the
    renamed symbols let, and, if, car ... of lines 73-92 are the constructors (which
    variables such symbols refer to is C58 and C59).  Identifiers of the program are numbers,
    identifiers that the compiler makes itself are [Fresh], [Len], [Ls], [I], [Res], [Expr]:
    they are renamed symbols, so none of them is an identifier of the program.  The name
    that next-symbol (96-98) makes ends with a counter; of the name only the counter is kept. *)
From Coq Require Import List Arith ZArith Lia Bool.
Import ListNotations.
Open Scope nat_scope.

(** Forms, and the objects that the procedures compute with. *)
Inductive datum :=
| Id (x : nat)            (* identifiers: symbols and aliases *)
| Nil
| Pair (a d : datum)
| Vec (l : datum)         (* the vector with the elements of the list l *)
| Bool (b : bool)
| Int (n : nat)
| Other (n : nat).        (* strings, characters and so on, the same number for equal? objects *)
(** equal? on trees, src/kernel/comparator.cpp:86-99 (see C26) *)
Fixpoint equal (x y : datum) : bool :=
  match x, y with
  | Id i, Id j | Int i, Int j | Other i, Other j => i =? j
  | Nil, Nil => true
  | Pair a d, Pair b e => equal a b && equal d e
  | Vec l, Vec m => equal l m
  | Bool a, Bool b => Bool.eqb a b
  | _, _ => false
  end.
(** Variables of the text that the compiler builds, library/srfi-149.ss:86-98 *)
Inductive var := User (x : nat) | Fresh (n : nat) | Len | Ls | I | Res | Expr.
Definition var_eqb (x y : var) : bool :=
  match x, y with
  | User i, User j | Fresh i, Fresh j => i =? j
  | Len, Len | Ls, Ls | I, I | Res, Res | Expr, Expr => true
  | _, _ => false
  end.
(** Procedures that the text calls, library/srfi-149.ss:73-92; [Length] is length* of 36-49 *)
Inductive prim1 := Car | Cdr | IsPair | IsNull | IsVector | IsList | Reverse | VectorToList | ListToVector | Length | ApplyAppend.
Inductive prim2 := Cons | Equal | Minus | AtLeast | Append.
(** The text that the compiler builds *)
Inductive expr :=
| EVar (x : var)
| EQuote (d : datum)                                     (* (syntax-quote d), and constants *)
| ELet (bs : list (var * expr)) (b : expr)
| ELoop (l : var) (bs : list (var * expr)) (b : expr)    (* (let l (bs ...) b) *)
| ECall (l : var) (args : list expr)                     (* a call of such an l *)
| EIf (c a b : expr)
| EAnd (a b : expr)
| EOr (a b : expr)
| E1 (p : prim1) (a : expr)
| E2 (p : prim2) (a b : expr)
| ERename (a : expr)
| ECompare (a b : expr)
| EMap (vs : list var) (b : expr) (args : list expr)     (* (map (lambda vs b) args ...) *)
| EError.                                                (* (error "no expansion for" ...) *)

(** [Bad]: error is called; [Stuck]: a procedure is called with wrong arguments *)
Inductive outcome (A : Type) := Ok (x : A) | Bad | Stuck | Out.
Arguments Ok {A} x. Arguments Bad {A}. Arguments Stuck {A}. Arguments Out {A}.
Definition bind {A B} (r : outcome A) (f : A -> outcome B) : outcome B := match r with Ok x => f x | Bad => Bad | Stuck => Stuck | Out => Out end.
Notation "'do' ' x <- r ; e" := (bind r (fun '(x) => e)) (at level 200, x pattern, r at level 100, e at level 200).
(** car and cdr of things that are no pairs are errors of the compiler; () here *)
Definition car (x : datum) : datum := match x with Pair a _ => a | _ => Nil end.
Definition cdr (x : datum) : datum := match x with Pair _ d => d | _ => Nil end.

(** ** The compiler *)
(** library/srfi-149.ss:36-49; on trees the number of pairs of the list *)
Fixpoint length_star (x : datum) : nat := match x with Pair _ d => S (length_star d) | _ => 0 end.
Section Compiler.
  (** compare, in the environment of the use of syntax-rules, library/meevax.ss:39-40 *)
  Variable compare : datum -> datum -> bool.
  (** library/srfi-149.ss:92-94 *)
  Variables underscore ellipsis lits : datum.
  Definition identifier (x : datum) : bool := match x with Id _ => true | _ => false end.
  (** library/srfi-149.ss:57-61 *)
  Fixpoint any (f : datum -> bool) (xs : datum) : bool := match xs with Pair a d => f a || any f d | _ => false end.
  (** library/srfi-149.ss:198 *)
  Definition ellipsis_escape (x : datum) : bool := match x with Pair a _ => compare ellipsis a | _ => false end.
  (** library/srfi-149.ss:199-200 *)
  Definition followed (x : datum) : bool := match x with Pair _ (Pair e _) => compare ellipsis e | _ => false end.
  (** library/srfi-149.ss:201-204 *)
  Fixpoint ellipsis_depth (x : datum) : nat :=
    match x with Pair _ d => if followed x then S (ellipsis_depth d) else 0 | _ => 0 end.
  (** library/srfi-149.ss:205-208 *)
  Fixpoint ellipsis_tail (x : datum) : datum :=
    match x with Pair _ d => if followed x then ellipsis_tail d else d | _ => Nil end.
  (** library/srfi-149.ss:111, 212: p is one of the literals *)
  Definition literal (p : datum) : bool := any (fun l => compare p l) lits.
  (** library/srfi-149.ss:209-218 *)
  Fixpoint all_vars (x : datum) (dim : nat) (vars : list (nat * nat)) : list (nat * nat) :=
    match x with
    | Id i => if literal x then vars else (i, dim) :: vars
    | Pair a d =>
      if followed x then match d with Pair _ r => all_vars a (S dim) (all_vars r dim vars) | _ => vars end
      else all_vars a dim (all_vars d dim vars)
    | Vec l => all_vars l dim vars
    | _ => vars
    end.
  (** assq and find on the variables, library/srfi-149.ss:63-68, 224, 236 *)
  Fixpoint depth_in (x : nat) (vars : list (nat * nat)) : option nat :=
    match vars with [] => None | (y, n) :: vars => if x =? y then Some n else depth_in x vars end.
  (** library/srfi-149.ss:219-230 *)
  Fixpoint free_vars (x : datum) (vars : list (nat * nat)) (dim : nat) (free : list nat) : list nat :=
    match x with
    | Id i =>
      if negb (existsb (Nat.eqb i) free) && match depth_in i vars with Some n => dim <=? n | None => false end
      then i :: free else free
    | Pair a d => free_vars a vars dim (free_vars d vars dim free)
    | Vec l => free_vars l vars dim free
    | _ => free
    end.
  (** library/srfi-149.ss:269-272 *)
  Fixpoint flatten (d : nat) (e : expr) : expr :=
    match d with 0 => e | S d => match d with 0 => e | S _ => E1 ApplyAppend (flatten d e) end end.
  (** library/srfi-149.ss:231-279.  The shortcut of 262-265 compares an identifier with a pair: it is never taken. *)
  Fixpoint expand_template (fuel : nat) (t : datum) (vars : list (nat * nat)) (dim : nat) : outcome expr :=
    match fuel with
    | 0 => Out
    | S fuel =>
      match t with
      | Id i =>
        match depth_in i vars with
        | Some n => if n <=? dim then Ok (EVar (User i)) else Bad                                   (* too few ...'s *)
        | None => Ok (ERename (EQuote t))
        end
      | Pair a d =>
        if ellipsis_escape t then
          Ok (EQuote match d with Pair a d' => match d' with Pair _ _ => d' | _ => a end | _ => d end)
        else if followed t then
          let depth := ellipsis_depth t in
          let ell_dim := dim + depth in
          let ell_vars := free_vars a vars ell_dim [] in
          match ell_vars with
          | [] => Bad                                                                              (* too many ...'s *)
          | _ =>
            if match cdr d with Nil => true | _ => false end && identifier a then expand_template fuel a vars ell_dim
            else
              do ' once <- expand_template fuel a vars ell_dim;
              let many := flatten depth (EMap (map User ell_vars) once (map (fun x => EVar (User x)) ell_vars)) in
              match ellipsis_tail t with
              | Nil => Ok many
              | r => do ' e <- expand_template fuel r vars dim; Ok (E2 Append many e)
              end
          end
        else
          do ' x <- expand_template fuel a vars dim;
          do ' y <- expand_template fuel d vars dim;
          Ok (E2 Cons x y)
      | Vec l => do ' e <- expand_template fuel l vars dim; Ok (E1 ListToVector e)
      | _ => Ok (EQuote t)
      end
    end.
  (** library/srfi-149.ss:96-98: c is the count *)
  Fixpoint next_symbols (c : nat) (k : nat) : list var := match k with 0 => [] | S k => Fresh (S c) :: next_symbols (S c) k end.
  (** library/srfi-149.ss:100-197, the loop of expand-pattern; the new symbols are numbered in the order of this text *)
  Fixpoint expand_pattern (fuel : nat) (p : datum) (x : expr) (dim : nat) (vars : list (nat * nat))
    (k : list (nat * nat) -> nat -> outcome (expr * nat)) (c : nat) {struct fuel} : outcome (expr * nat) :=
    match fuel with
    | 0 => Out
    | S fuel =>
      let c := S c in
      let v := Fresh c in
      do '(e, c) <-
        match p with
        | Id i =>
          if literal p then do '(e, c) <- k vars c; Ok (EAnd (ECompare (EVar v) (ERename (EQuote p))) e, c)   (* 110-114 *)
          else if compare p underscore then k vars c                                                      (* 115-116 *)
          else do '(e, c) <- k ((i, dim) :: vars) c; Ok (ELet [(User i, EVar v)] e, c)                    (* 117 *)
        | Pair a d =>
          if followed p then
            match cdr d with
            | Nil =>
              match a with
              | Id i =>                                                                                   (* 148-151 *)
                do '(e, c) <- k ((i, S dim) :: vars) c;
                Ok (EAnd (E1 IsList (EVar v)) (ELet [(User i, EVar v)] e), c)
              | _ =>                                                                                      (* 152-183 *)
                let w := Fresh (S c) in
                let l := Fresh (S (S c)) in
                let new_vars := all_vars a (S dim) [] in
                let ls_vars := next_symbols (S (S c)) (length new_vars) in
                do '(once, c) <- expand_pattern fuel a (E1 Car (EVar w)) (S dim) []
                  (fun _ c => Ok (ECall l (E1 Cdr (EVar w) ::
                                           map (fun '((x, _), y) => E2 Cons (EVar (User x)) (EVar y)) (combine new_vars ls_vars)), c))
                  (S (S c) + length new_vars);
                do '(e, c) <- k (new_vars ++ vars) c;
                Ok (ELoop l ((w, EVar v) :: map (fun y => (y, EQuote Nil)) ls_vars)
                      (EIf (E1 IsNull (EVar w))
                           (ELet (map (fun '((x, _), y) => (User x, E1 Reverse (EVar y))) (combine new_vars ls_vars)) e)
                           (EAnd (E1 IsPair (EVar w)) once)), c)
              end
            | r =>                                                                                        (* 120-147 *)
              if any (fun x => identifier x && compare x ellipsis) r then Bad
              else
                let len := EQuote (Int (length_star r)) in
                let l := Fresh (S c) in
                do '(e, c) <- expand_pattern fuel (Pair r (Pair (Pair a (Pair (car d) Nil)) Nil))
                  (E2 Cons (EVar Ls) (E2 Cons (E1 Reverse (EVar Res)) (EQuote Nil))) dim vars k (S c);
                Ok (ELet [(Len, E1 Length (EVar v))]
                     (EAnd (E2 AtLeast (EVar Len) len)
                           (ELoop l [(Ls, EVar v); (I, E2 Minus (EVar Len) len); (Res, EQuote Nil)]
                              (EIf (E2 AtLeast (EQuote (Int 0)) (EVar I)) e
                                   (ECall l [E1 Cdr (EVar Ls); E2 Minus (EVar I) (EQuote (Int 1));
                                             E2 Cons (E1 Car (EVar Ls)) (EVar Res)])))), c)
            end
          else                                                                                            (* 184-191 *)
            do '(e, c) <- expand_pattern fuel a (E1 Car (EVar v)) dim vars
              (fun vars c => expand_pattern fuel d (E1 Cdr (EVar v)) dim vars k c) c;
            Ok (EAnd (E1 IsPair (EVar v)) e, c)
        | Vec l =>                                                                                        (* 192-195 *)
          do '(e, c) <- expand_pattern fuel l (E1 VectorToList (EVar v)) dim vars k c;
          Ok (EAnd (E1 IsVector (EVar v)) e, c)
        | Nil => do '(e, c) <- k vars c; Ok (EAnd (E1 IsNull (EVar v)) e, c)                               (* 196 *)
        | _ => do '(e, c) <- k vars c; Ok (EAnd (E2 Equal (EVar v) (EQuote p)) e, c)                       (* 197 *)
        end;
      Ok (ELet [(v, x)] e, c)                                                                            (* 106-108 *)
    end.
  (** one rule: the pattern without its keyword, 99-105 *)
  Definition expand_rule (fuel : nat) (p t : datum) (c : nat) : outcome (expr * nat) :=
    expand_pattern fuel p (E1 Cdr (EVar Expr)) 0 []
      (fun vars c => do ' e <- expand_template fuel t vars 0; Ok (E2 Cons e (EQuote (Bool false)), c)) c.
  (** library/srfi-149.ss:284-295; the body of the or expression *)
  Fixpoint expand_rules (fuel : nat) (rules : list (datum * datum)) (c : nat) : outcome expr :=
    match rules with
    | [] => Ok (E2 Cons EError (EQuote (Bool false)))
    | (p, t) :: rules =>
      do '(a, c) <- expand_rule fuel (cdr p) t c;
      do ' b <- expand_rules fuel rules c;
      Ok (EOr a b)
    end.
  (** library/srfi-149.ss:280-295: the body of the procedure of expr, rename and compare *)
  Definition transformer (fuel : nat) (rules : list (datum * datum)) : outcome expr :=
    do ' e <- expand_rules fuel rules 0; Ok (E1 Car e).
End Compiler.

(** ** The procedures *)
(** What a variable stands for *)
Inductive slot := Datum (d : datum) | Loop (ps : list var) (b : expr) (env : list (var * slot)).
Definition environment := list (var * slot).
Fixpoint lookup (x : var) (env : environment) : option slot :=
  match env with [] => None | (y, s) :: env => if var_eqb x y then Some s else lookup x env end.
(** Variables of a lambda expression *)
Definition extend (xs : list var) (ds : list datum) (env : environment) : environment :=
  map (fun '(x, d) => (x, Datum d)) (combine xs ds) ++ env.
Fixpoint dlist (l : list datum) : datum := match l with [] => Nil | x :: l => Pair x (dlist l) end.
(** The elements of a proper list *)
Fixpoint proper (x : datum) : option (list datum) :=
  match x with
  | Nil => Some []
  | Pair a d => match proper d with Some l => Some (a :: l) | None => None end
  | _ => None
  end.
Definition on_list {A} (x : datum) (f : list datum -> outcome A) : outcome A := match proper x with Some l => f l | None => Stuck end.
Fixpoint append_to (l : list datum) (x : datum) : datum := match l with [] => x | a :: l => Pair a (append_to l x) end.
(** append of any number of lists, src/kernel/list.cpp (see C23) *)
Fixpoint append_all (l : list datum) : outcome datum :=
  match l with
  | [] => Ok Nil
  | [x] => Ok x
  | x :: l => do ' d <- append_all l; on_list x (fun l => Ok (append_to l d))
  end.
Definition holds (b : bool) : outcome datum := Ok (Bool b).
(** car, cdr, pair?, null?, vector?, list?, reverse, vector->list, list->vector, length* and (apply append x), see C19, C21, C23;
    wrong arguments are [Stuck] *)
Definition apply1 (p : prim1) (x : datum) : outcome datum :=
  match p with
  | Car => match x with Pair a _ => Ok a | _ => Stuck end
  | Cdr => match x with Pair _ d => Ok d | _ => Stuck end
  | IsPair => holds match x with Pair _ _ => true | _ => false end
  | IsNull => holds match x with Nil => true | _ => false end
  | IsVector => holds match x with Vec _ => true | _ => false end
  | IsList => holds match proper x with Some _ => true | None => false end
  | Reverse => on_list x (fun l => Ok (dlist (rev l)))
  | VectorToList => match x with Vec l => Ok l | _ => Stuck end
  | ListToVector => on_list x (fun _ => Ok (Vec x))
  | Length => Ok (Int (length_star x))
  | ApplyAppend => on_list x append_all
  end.
(** cons (cons-source, 51, ignores its third argument, see C53), equal?, -, >= and (append x y) *)
Definition apply2 (p : prim2) (x y : datum) : outcome datum :=
  match p, x, y with
  | Cons, _, _ => Ok (Pair x y)
  | Equal, _, _ => holds (equal x y)
  | Minus, Int m, Int n => Ok (Int (m - n))
  | AtLeast, Int m, Int n => holds (n <=? m)
  | Append, _, _ => on_list x (fun l => Ok (append_to l y))
  | _, _, _ => Stuck
  end.
Definition truth (x : datum) : bool := match x with Bool false => false | _ => true end.
Fixpoint gather {A} (l : list (outcome A)) : outcome (list A) :=
  match l with [] => Ok [] | x :: l => bind x (fun x => bind (gather l) (fun l => Ok (x :: l))) end.
(** The rows of arguments of map, library/meevax.ss:123-142: as many as the shortest list has elements *)
Fixpoint rows (n : nat) (ls : list (list datum)) : list (list datum) :=
  match n with
  | 0 => []
  | S n => if existsb (fun l => match l with [] => true | _ => false end) ls then []
           else map (hd Nil) ls :: rows n (map (@tl datum) ls)
  end.
Definition map_rows (ls : list (list datum)) : list (list datum) := rows (length (hd [] ls)) ls.
Section Procedures.
  (** rename and compare of the use of the macro, library/meevax.ss:30-40; within one use rename is a function *)
  Variables (rename : datum -> datum) (compare : datum -> datum -> bool).
  (** The values of global variables *)
  Variable global : var -> datum.
  (** The meaning of the text.  A variable without binding is a global one. *)
  Fixpoint eval (fuel : nat) (env : environment) (e : expr) {struct fuel} : outcome datum :=
    match fuel with
    | 0 => Out
    | S fuel =>
      let all es := gather (map (eval fuel env) es) in
      match e with
      | EVar x => match lookup x env with Some (Datum d) => Ok d | Some _ => Stuck | None => Ok (global x) end
      | EQuote d => Ok d
      | ELet bs b => do ' ds <- all (map snd bs); eval fuel (extend (map fst bs) ds env) b
      | ELoop l bs b =>
        do ' ds <- all (map snd bs); eval fuel (extend (map fst bs) ds ((l, Loop (map fst bs) b env) :: env)) b
      | ECall l es =>
        do ' ds <- all es;
        match lookup l env with
        | Some (Loop ps b env') => eval fuel (extend ps ds ((l, Loop ps b env') :: env')) b
        | _ => Stuck
        end
      | EIf c a b => do ' d <- eval fuel env c; eval fuel env (if truth d then a else b)
      | EAnd a b => do ' d <- eval fuel env a; if truth d then eval fuel env b else Ok d
      | EOr a b => do ' d <- eval fuel env a; if truth d then Ok d else eval fuel env b
      | E1 p a => do ' x <- eval fuel env a; apply1 p x
      | E2 p a b => do ' x <- eval fuel env a; do ' y <- eval fuel env b; apply2 p x y
      | ERename a => do ' x <- eval fuel env a; Ok (rename x)
      | ECompare a b => do ' x <- eval fuel env a; do ' y <- eval fuel env b; Ok (Bool (compare x y))
      | EMap vs b es =>
        do ' ds <- all es;
        do ' ls <- gather (map (fun d => on_list d Ok) ds);
        do ' l <- gather (map (fun row => eval fuel (extend vs row env) b) (map_rows ls));
        Ok (dlist l)
      | EError => Bad
      end
    end.
  (** A use of the macro: expr is the form *)
  Definition expand (fuel : nat) (procedure : expr) (form : datum) : outcome datum := eval fuel [(Expr, Datum form)] procedure.
End Procedures.
