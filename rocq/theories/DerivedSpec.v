(** What the derived forms mean.  The first half says what the expansions compute: the meaning of the
    few core forms that occur in them.  The second half is the specification: the rules of R7RS 4.2 for
    each derived form, which do not mention expansions.

    The expressions of the user inside a derived form are any forms; [user e r s v s'] is that e in the
    environment r and the state s has the value v and leaves the state s', with no assumption about it.  The
    operands of a combination are evaluated from right to left (R7RS 4.1.3 leaves the order open; this is
    the one of the machine, C28). *)
From Coq Require Import List Bool Arith.
From Verif Require Import DerivedForms.
Import ListNotations.

(** a form of the user: the transformers have put nothing into it *)
Fixpoint plain (f : form) : bool :=
  match f with
  | Pair a d => plain a && plain d
  | Vec l => plain l
  | Ren _ | Lit _ => false
  | _ => true
  end.

Section Semantics.
Variables value state loc : Type.
Definition env := nat -> option loc.
Variable truth : value -> bool.
Variables v_true v_false v_unspecified : value.
Variable user : form -> env -> state -> value -> state -> Prop.
(** the expressions and definitions of a body *)
Variable user_body : form -> env -> state -> value -> state -> Prop.
Variable apply : value -> list value -> state -> value -> state -> Prop.
Variable eqv : value -> value -> bool.
Variable datum : form -> value.
(** a new location holding a value; changing it, and what it holds *)
Variable alloc : state -> value -> loc * state.
Variable assign : state -> loc -> value -> state.
Variable content : state -> loc -> option value.
(** the procedure that (lambda formals . body) creates; the value of a variable before its initialisation *)
Variable closure : form -> form -> env -> state -> value * state.
Variable undefined : value.

Definition extend (r : env) (x : nat) (l : loc) : env := fun y => if y =? x then Some l else r y.
(** new locations for the variables *)
Fixpoint bind (xs : list nat) (vs : list value) (r : env) (s : state) : option (env * state) :=
  match xs, vs with
  | [], [] => Some (r, s)
  | x :: xs, v :: vs => let '(l, s) := alloc s v in match bind xs vs r s with Some (r, s) => Some (extend r x l, s) | None => None end
  | _, _ => None
  end.
Inductive users : list form -> env -> state -> list value -> state -> Prop :=
| U_nil r s : users [] r s [] s
| U_cons e es r s vs s1 v s2 : users es r s vs s1 -> user e r s1 v s2 -> users (e :: es) r s (v :: vs) s2.
(** the expressions of a sequence, in order *)
Inductive sequence : list form -> env -> state -> value -> state -> Prop :=
| S_last e r s v s1 : user e r s v s1 -> sequence [e] r s v s1
| S_more e es r s u s1 v s2 : user e r s u s1 -> sequence es r s1 v s2 -> es <> [] -> sequence (e :: es) r s v s2.
Definition memv (v : value) (ds : list form) : bool := existsb (fun d => eqv v (datum d)) ds.

(** ** What an expansion computes *)
Section Expansions.
Variable same : name -> form -> bool.
(** what a variable of the transformer stands for: a value, or a loop *)
Inductive tval := TVal (v : value) | TLoop (formals : list nat) (body : form) (r : env) (t : name -> option tval).
Definition tmps := name -> option tval.
Definition set (t : tmps) (k : name) (x : tval) : tmps :=
  fun k' => match k, k' with
            | n_result, n_result | n_it, n_it | n_rec, n_rec => Some x
            | _, _ => t k'
            end.
Inductive ev : tmps -> env -> form -> state -> value -> state -> Prop :=
| V_user t r f s v s1 : plain f = true -> user f r s v s1 -> ev t r f s v s1
| V_true t r s : ev t r (Lit l_true) s v_true s
| V_false t r s : ev t r (Lit l_false) s v_false s
| V_unspecified t r s : ev t r (Lit l_unspecified) s v_unspecified s
| V_tmp t r k v s : t k = Some (TVal v) -> ev t r (Ren k) s v s
| V_if_true t r a b rest s u s1 v s2 : ev t r a s u s1 -> truth u = true -> ev t r b s1 v s2 -> ev t r (Pair (Ren n_if) (Pair a (Pair b rest))) s v s2
| V_if_false t r a b c s u s1 v s2 : ev t r a s u s1 -> truth u = false -> ev t r c s1 v s2 -> ev t r (flist [Ren n_if; a; b; c]) s v s2
| V_if_none t r a b s u s1 : ev t r a s u s1 -> truth u = false -> ev t r (flist [Ren n_if; a; b]) s v_unspecified s1
| V_begin t r es s v s1 : evb t r es s v s1 -> ev t r (Pair (Ren n_begin) (flist es)) s v s1
| V_quote t r d s : ev t r (flist [Ren n_quote; d]) s (datum d) s
| V_not t r e s v s1 : ev t r e s v s1 -> ev t r (flist [Ren n_not; e]) s (if truth v then v_false else v_true) s1
| V_eqv t r e d s v s1 : ev t r e s v s1 -> ev t r (flist [Ren n_eqv; e; flist [Ren n_quote; d]]) s (if eqv v (datum d) then v_true else v_false) s1
(** the value of memv is a list or #f; only its truth is used *)
| V_memv t r e ds s v s1 w : ev t r e s v s1 -> truth w = memv v ds -> ev t r (flist [Ren n_memv; e; flist [Ren n_quote; flist ds]]) s w s1
(** a call of a procedure of the user with the value of a variable of the transformer *)
| V_call t r f k s v s1 w s2 : t k = Some (TVal v) -> plain f = true -> user f r s w s1 -> forall u, apply w [v] s1 u s2 -> ev t r (flist [f; Ren k]) s u s2
(** ((lambda (k) e) init) *)
| V_let_tmp t r k e init s u s1 v s2 : ev t r init s u s1 -> ev (set t k (TVal u)) r e s1 v s2 ->
    ev t r (flist [flist [Ren n_lambda; flist [Ren k]; e]; init]) s v s2
(** ((lambda (x ...) . body) init ...) *)
| V_let t r xs body inits s vs s1 r' s2 v s3 : users inits r s vs s1 -> forallb plain inits = true -> bind xs vs r s1 = Some (r', s2) -> evl t r' body s2 v s3 ->
    ev t r (Pair (Pair (Ren n_lambda) (Pair (flist (List.map Id xs)) body)) (flist inits)) s v s3
(** (letrec ((rec (lambda (x ...) e))) call) *)
| V_loop t r xs e call s v s1 : ev (set t n_rec (TLoop xs e r t)) r call s v s1 ->
    ev t r (flist [Ren n_letrec; flist [flist [Ren n_rec; flist [Ren n_lambda; flist (List.map Id xs); e]]]; call]) s v s1
| V_again t r xs e r0 t0 args s vs s1 r' s2 v s3 : t n_rec = Some (TLoop xs e r0 t0) -> users args r s vs s1 -> forallb plain args = true -> bind xs vs r0 s1 = Some (r', s2) ->
    ev (set t0 n_rec (TLoop xs e r0 t0)) r' e s2 v s3 -> ev t r (Pair (Ren n_rec) (flist args)) s v s3
(** (letrec ((f (lambda formals . body))) (f init ...)) *)
| V_letrec t r f formals body inits s l s1 w s2 vs s3 u v s4 : alloc s undefined = (l, s1) -> closure formals body (extend r f l) s1 = (w, s2) ->
    users inits (extend r f l) (assign s2 l w) vs s3 -> forallb plain inits = true -> content s3 l = Some u -> apply u vs s3 v s4 ->
    ev t r (flist [Ren n_letrec; flist [flist [Id f; Pair (Ren n_lambda) (Pair formals body)]]; Pair (Id f) (flist inits)]) s v s4
(** a macro use is evaluated by evaluating its expansion *)
| V_macro t r k m rest s v s1 : macro same k = Some m -> ev t r (m (Pair (Ren k) rest)) s v s1 -> ev t r (Pair (Ren k) rest) s v s1
with evb : tmps -> env -> list form -> state -> value -> state -> Prop :=
| VB_last t r e s v s1 : ev t r e s v s1 -> evb t r [e] s v s1
| VB_more t r e es s u s1 v s2 : ev t r e s u s1 -> evb t r es s1 v s2 -> es <> [] -> evb t r (e :: es) s v s2
(** a body: of the user, or one expression made by a transformer *)
with evl : tmps -> env -> form -> state -> value -> state -> Prop :=
| VL_user t r body s v s1 : plain body = true -> user_body body r s v s1 -> evl t r body s v s1
| VL_one t r e s v s1 : plain e = false -> ev t r e s v s1 -> evl t r (flist [e]) s v s1.
Scheme ev_mut := Minimality for ev Sort Prop with evb_mut := Minimality for evb Sort Prop with evl_mut := Minimality for evl Sort Prop.
Combined Scheme ev_all from ev_mut, evb_mut, evl_mut.
End Expansions.

(** ** Specification *)
(** cond, R7RS 4.2.1 *)
Inductive clause := C_else (es : list form) | C_test (test : form) | C_arrow (test receiver : form) | C_body (test : form) (es : list form).
Inductive cond_means : list clause -> env -> state -> value -> state -> Prop :=
| CM_none r s : cond_means [] r s v_unspecified s
| CM_else es r s v s1 : sequence es r s v s1 -> cond_means [C_else es] r s v s1
| CM_test test cs r s v s1 : user test r s v s1 -> truth v = true -> cond_means (C_test test :: cs) r s v s1
| CM_arrow test f cs r s v s1 w s2 u s3 : user test r s v s1 -> truth v = true -> user f r s1 w s2 -> apply w [v] s2 u s3 -> cond_means (C_arrow test f :: cs) r s u s3
| CM_body test es cs r s v s1 u s2 : user test r s v s1 -> truth v = true -> sequence es r s1 u s2 -> cond_means (C_body test es :: cs) r s u s2
| CM_next c test cs r s v s1 u s2 :
    match c with C_else _ => False | C_test e | C_arrow e _ | C_body e _ => e = test end ->
    user test r s v s1 -> truth v = false -> cond_means cs r s1 u s2 -> cond_means (c :: cs) r s u s2.
(** case, R7RS 4.2.1; None is else *)
Inductive case_clause := Case (data : option (list form)) (consequence : list form + form).
Inductive consequence_means (key : value) : list form + form -> env -> state -> value -> state -> Prop :=
| KM_body es r s v s1 : sequence es r s v s1 -> consequence_means key (inl es) r s v s1
| KM_arrow f r s w s1 u s2 : user f r s w s1 -> apply w [key] s1 u s2 -> consequence_means key (inr f) r s u s2.
Inductive clauses_mean (key : value) : list case_clause -> env -> state -> value -> state -> Prop :=
| KC_none r s : clauses_mean key [] r s v_unspecified s
| KC_else k r s v s1 : consequence_means key k r s v s1 -> clauses_mean key [Case None k] r s v s1
| KC_match ds k cs r s v s1 : memv key ds = true -> consequence_means key k r s v s1 -> clauses_mean key (Case (Some ds) k :: cs) r s v s1
| KC_next ds k cs r s v s1 : memv key ds = false -> clauses_mean key cs r s v s1 -> clauses_mean key (Case (Some ds) k :: cs) r s v s1.
Definition case_means (e : form) (cs : list case_clause) (r : env) (s : state) (v : value) (s2 : state) : Prop :=
  exists key s1, user e r s key s1 /\ clauses_mean key cs r s1 v s2.
(** and, or, R7RS 4.2.1 *)
Inductive and_means : list form -> env -> state -> value -> state -> Prop :=
| AM_none r s : and_means [] r s v_true s
| AM_last e r s v s1 : user e r s v s1 -> and_means [e] r s v s1
| AM_stop e es r s v s1 : user e r s v s1 -> truth v = false -> and_means (e :: es) r s v s1
| AM_next e es r s v s1 u s2 : user e r s v s1 -> truth v = true -> and_means es r s1 u s2 -> es <> [] -> and_means (e :: es) r s u s2.
Inductive or_means : list form -> env -> state -> value -> state -> Prop :=
| OM_none r s : or_means [] r s v_false s
| OM_last e r s v s1 : user e r s v s1 -> or_means [e] r s v s1
| OM_stop e es r s v s1 : user e r s v s1 -> truth v = true -> or_means (e :: es) r s v s1
| OM_next e es r s v s1 u s2 : user e r s v s1 -> truth v = false -> or_means es r s1 u s2 -> es <> [] -> or_means (e :: es) r s u s2.
(** when, unless, R7RS 4.2.1 *)
Inductive when_means (b : bool) (test : form) (es : list form) : env -> state -> value -> state -> Prop :=
| WM_do r s v s1 u s2 : user test r s v s1 -> truth v = b -> sequence es r s1 u s2 -> when_means b test es r s u s2
| WM_skip r s v s1 : user test r s v s1 -> truth v = negb b -> when_means b test es r s v_unspecified s1.
(** let, let*, R7RS 4.2.2 *)
Definition let_means (bs : list (nat * form)) (body : form) (r : env) (s : state) (v : value) (s3 : state) : Prop :=
  exists vs s1 r' s2, users (List.map snd bs) r s vs s1 /\ bind (List.map fst bs) vs r s1 = Some (r', s2) /\ user_body body r' s2 v s3.
Inductive let_star_means : list (nat * form) -> form -> env -> state -> value -> state -> Prop :=
| LM_body body r s v s1 : user_body body r s v s1 -> let_star_means [] body r s v s1
| LM_bind x e bs body r s u s1 l s2 v s3 : user e r s u s1 -> alloc s1 u = (l, s2) -> let_star_means bs body (extend r x l) s2 v s3 -> let_star_means ((x, e) :: bs) body r s v s3.
(** named let, R7RS 4.2.4: the inits are not in the scope of the name; the operator is evaluated before them *)
Definition named_let_means (f : nat) (bs : list (nat * form)) (body : form) (r : env) (s : state) (v : value) (s4 : state) : Prop :=
  exists l s1 w s2 vs s3, alloc s undefined = (l, s1) /\ closure (flist (List.map (fun b => Id (fst b)) bs)) body (extend r f l) s1 = (w, s2) /\
    users (List.map snd bs) r (assign s2 l w) vs s3 /\ apply w vs s3 v s4.
(** do, R7RS 4.2.4 *)
Record do_var := Var { variable : nat; init : form; step : option form }.
Definition next_of (b : do_var) : form := match step b with Some e => e | None => Id (variable b) end.
Inductive run : list form -> env -> state -> state -> Prop :=
| R_nil r s : run [] r s s
| R_cons e es r s v s1 s2 : user e r s v s1 -> run es r s1 s2 -> run (e :: es) r s s2.
Inductive do_loop (bs : list do_var) (test : form) (result commands : list form) (outer : env) : env -> state -> value -> state -> Prop :=
| DL_value r s v s1 u s2 : user test r s v s1 -> truth v = true -> result <> [] -> sequence result r s1 u s2 -> do_loop bs test result commands outer r s u s2
(** without expressions the value is unspecified *)
| DL_none r s v s1 : user test r s v s1 -> truth v = true -> result = [] -> do_loop bs test result commands outer r s v s1
| DL_next r s v s1 s2 vs s3 r' s4 u s5 : user test r s v s1 -> truth v = false -> run commands r s1 s2 ->
    users (List.map next_of bs) r s2 vs s3 -> bind (List.map variable bs) vs outer s3 = Some (r', s4) ->
    do_loop bs test result commands outer r' s4 u s5 -> do_loop bs test result commands outer r s u s5.
Definition do_means (bs : list do_var) (test : form) (result commands : list form) (r : env) (s : state) (v : value) (s3 : state) : Prop :=
  exists vs s1 r' s2, users (List.map init bs) r s vs s1 /\ bind (List.map variable bs) vs r s1 = Some (r', s2) /\
    do_loop bs test result commands r r' s2 v s3.
End Semantics.

(** ** Concrete syntax.  [els], [arr]: how else and => are written *)
Section Syntax.
Variables els arr : form.
Definition clause_form (c : clause) : form :=
  match c with
  | C_else es => Pair els (flist es)
  | C_test e => flist [e]
  | C_arrow e f => flist [e; arr; f]
  | C_body e es => Pair e (flist es)
  end.
Definition case_form (c : case_clause) : form :=
  match c with
  | Case ds k => Pair (match ds with Some ds => flist ds | None => els end) (match k with inl es => flist es | inr f => flist [arr; f] end)
  end.
Definition binding_form (b : nat * form) : form := flist [Id (fst b); snd b].
Definition do_form (b : do_var) : form := Pair (Id (variable b)) (Pair (init b) (match step b with Some e => flist [e] | None => Nil end)).

(** well-formed clauses: else comes last, and no other expression is else or => in disguise *)
Variable same : name -> form -> bool.
Definition arrow_free (es : list form) : Prop := match es with e :: _ => same n_arrow e = false | [] => False end.
Definition clause_ok (c : clause) (last : bool) : Prop :=
  match c with
  | C_else es => last = true /\ forallb plain es = true
  | C_test e => plain e = true /\ same n_else e = false
  | C_arrow e f => plain e = true /\ same n_else e = false /\ plain f = true
  | C_body e es => plain e = true /\ same n_else e = false /\ forallb plain es = true /\ arrow_free es
  end.
Fixpoint clauses_ok (cs : list clause) : Prop :=
  match cs with
  | [] => True
  | c :: cs => clause_ok c (match cs with [] => true | _ => false end) /\ clauses_ok cs
  end.
Definition consequence_ok (k : list form + form) : Prop :=
  match k with inl es => forallb plain es = true /\ arrow_free es | inr f => plain f = true end.
Fixpoint cases_ok (cs : list case_clause) : Prop :=
  match cs with
  | [] => True
  | Case ds k :: cs => consequence_ok k /\ cases_ok cs /\
    match ds with
    | Some ds => same n_else (flist ds) = false
    | None => cs = []
    end
  end.
End Syntax.

(** ** Quasiquotation, R7RS 4.2.8 *)
Section Quasi.
(** the identifiers that mean unquote, unquote-splicing and quasiquote, and the value of an expression *)
Variable same : name -> form -> bool.
Variable user : form -> form.
Definition special (x : form) : bool := same n_unquote x || same n_unquote_splicing x || same n_quasiquote x.
(** a splice: (unquote-splicing e) *)
Definition splice (x : form) : bool := is_pair x && same n_unquote_splicing (car x).
(** [quasi d x y]: the template x inside d further quasiquotations stands for the structure y.
    The three identifiers occur only where the grammar has them. *)
Inductive quasi : nat -> form -> form -> Prop :=
| Q_nil d : quasi d Nil Nil
| Q_const d c : quasi d (Const c) (Const c)
| Q_id d x : special (Id x) = false -> quasi d (Id x) (Id x)
| Q_unquote a e : same n_unquote a = true -> plain e = true -> quasi 0 (flist [a; e]) (user e)
| Q_unquote_inner d a e y : same n_unquote a = true -> quasi d e y -> quasi (S d) (flist [a; e]) (flist [a; y])
| Q_splicing_inner d a e y : same n_unquote_splicing a = true -> quasi d e y -> quasi (S d) (flist [a; e]) (flist [a; y])
| Q_quasiquote d a e y : same n_quasiquote a = true -> quasi (S d) e y -> quasi d (flist [a; e]) (flist [a; y])
| Q_splice a e vs rest y : same n_unquote_splicing a = true -> plain e = true -> user e = flist vs -> quasi 0 rest y ->
    quasi 0 (Pair (flist [a; e]) rest) (append (flist vs) y)
| Q_pair d a b y z : special a = false -> (d = 0 -> splice a = false) -> quasi d a y -> quasi d b z -> quasi d (Pair a b) (Pair y z)
| Q_vector d l vs : elements d l vs -> quasi d (Vec (flist l)) (Vec (flist vs))
(** the elements of a vector *)
with elements : nat -> list form -> list form -> Prop :=
| QE_nil d : elements d [] []
| QE_splice a e vs l ws : same n_unquote_splicing a = true -> plain e = true -> user e = flist vs -> elements 0 l ws -> elements 0 (flist [a; e] :: l) (vs ++ ws)
| QE_one d x y l ws : special x = false -> (d = 0 -> splice x = false) -> quasi d x y -> elements d l ws -> elements d (x :: l) (y :: ws).

(** what the expansion of a quasiquotation computes *)
Fixpoint elements_of (x : form) : option (list form) :=
  match x with
  | Nil => Some []
  | Pair a d => match elements_of d with Some l => Some (a :: l) | None => None end
  | _ => None
  end.
Inductive builds : form -> form -> Prop :=
| B_user e : plain e = true -> builds e (user e)
| B_quote d : builds (flist [Ren n_quote; d]) d
| B_list a b x y : builds a x -> builds b y -> builds (flist [Ren n_list; a; b]) (flist [x; y])
| B_cons a b x y : builds a x -> builds b y -> builds (flist [Ren n_cons; a; b]) (Pair x y)
| B_append a b x y l : builds a x -> elements_of x = Some l -> builds b y -> builds (flist [Ren n_append; a; b]) (append x y)
| B_vector a x l : builds a x -> elements_of x = Some l -> builds (flist [Ren n_list_to_vector; a]) (Vec x).
End Quasi.
