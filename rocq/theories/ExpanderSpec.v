(** What the expanded code of a form should be: lexical scope and hygienic macros.

    An identifier is a symbol of the program or an alias, a symbol that a macro has put
    in; every use of a macro has aliases of its own.  An identifier refers to the innermost
    variable that is the same identifier; if there is none, a symbol refers to the global variable of
    the program, and an alias to the global variable of the environment of the macro.  Nothing is renamed,
    and no form is expanded twice.

    The relation has a parameter [careful].  With [careful = false] it is the
    specification; with [careful = true] the rules have further premises, which leave out
    what the expander gets wrong (see the refutations in PropertiesExpander.v):
    - a variable with the name of another variable around it that is the name of a
      macro or of syntax as well, and an alias with the name of a macro or of
      syntax as a variable,
    - a macro that stands for nothing but a variable of this kind,
    - quoted data with an alias inside,
    - letrec of a variable with the name of a variable around it,
    - the internal definition of a variable with the name of a variable around it, or
      with the name of a macro or of syntax,
    - the use of a macro that stands for an internal definition (the proof is missing; the expander does
      not end if the macro puts in the name of the variable). *)
From Coq Require Import List Bool Arith.
From Verif Require Import Expander.
Import ListNotations.

(** The same identifier: the same symbol, or the same alias *)
Definition identical (x y : form) : bool :=
  match x, y with
  | Sym s, Sym t => s =? t
  | Clo i _ _ _ _, Clo j _ _ _ _ => i =? j
  | _, _ => false
  end.
(** The first binding of a symbol *)
Fixpoint bound {A} (s : nat) (l : list (nat * A)) : option A :=
  match l with
  | [] => None
  | (t, x) :: l => if s =? t then Some x else bound s l
  end.
(** The number of required arguments; whether there is a rest argument; the variables of binding specs *)
Fixpoint required (formals : form) : nat := match formals with Pair _ d => S (required d) | _ => 0 end.
Fixpoint has_rest (formals : form) : bool := match formals with Pair _ d => has_rest d | Nil => false | _ => true end.
Fixpoint variables_of (specs : form) : form := match specs with Pair (Pair v _) d => Pair v (variables_of d) | Pair _ d => Pair Nil (variables_of d) | _ => Nil end.
(** The forms xs in front of the forms ys *)
Fixpoint join (xs ys : form) : form := match xs with Pair a d => Pair a (join d ys) | _ => ys end.
(** A template with its symbols replaced by aliases for the environment g', numbered from n on; the
    same symbol has the same alias in all of the template *)
Fixpoint write_out (g' : nat) (tp : template) (aliases : list (nat * form)) (n : nat) : form * list (nat * form) * nat :=
  match tp with
  | TForm x => (x, aliases, n)
  | TName s => match bound s aliases with
               | Some x => (x, aliases, n)
               | None => (Clo n [] g' Nil (Sym s), (s, Clo n [] g' Nil (Sym s)) :: aliases, S n)
               end
  | TAtom k => (Atom k, aliases, n)
  | TNil => (Nil, aliases, n)
  | TPair a d => let '(a, aliases, n) := write_out g' a aliases n in let '(d, aliases, n) := write_out g' d aliases n in (Pair a d, aliases, n)
  end.

Section Spec.
  Variable second : nat -> list (nat * nat).
  Variable content : nat -> binding.
  Variable macro : nat -> form -> option template.
  Variable g : nat.                      (* the environment of the program *)
  Variable careful : bool.

  (** The place of an identifier in formals and in the formals around it *)
  Fixpoint spot (v formals : form) (j : nat) : option (nat * bool) :=
    match formals with
    | Pair a d => if identical a v then Some (j, false) else spot v d (S j)
    | x => if identical x v then Some (j, true) else None
    end.
  Fixpoint place (v : form) (env : list form) (i : nat) : option (nat * nat * bool) :=
    match env with
    | [] => None
    | f :: env => match spot v f 0 with Some (j, r) => Some (i, j, r) | None => place v env (S i) end
    end.
  Definition cell (v : form) : option nat :=
    match v with
    | Sym s => bound s (second g)
    | Clo _ _ g' _ (Sym s) => bound s (second g')
    | _ => None
    end.
  Definition local_code (p : nat * nat * bool) : code := let '(i, j, r) := p in if r then CRest i j else CLocal i j.
  (** A symbol without a binding is a global variable to be *)
  Definition denotes (env : list form) (v : form) (c : code) : Prop :=
    match place v env 0 with
    | Some p => c = local_code p
    | None => match cell v with
              | Some k => c = CGlobal k
              | None => match v with Sym _ => c = CNew v | _ => False end
              end
    end.
  Definition keyword_content (v : form) : option binding :=
    match cell v with Some k => match content k with Value => None | b => Some b end | None => None end.
  Definition kind (env : list form) (v : form) : option binding :=
    match place v env 0 with Some _ => None | None => keyword_content v end.
  Definition syntax (env : list form) (v : form) (k : nat) : Prop := is_id v = true /\ kind env v = Some (Syntax k).

  (** Formals: identifiers, none of them twice *)
  Fixpoint formal_names (formals : form) : list form := match formals with Pair a d => a :: formal_names d | Nil => [] | x => [x] end.
  Fixpoint different (formals : form) : Prop := match formals with Pair a d => spot a d 0 = None /\ different d | _ => True end.
  Definition formals_ok (formals : form) : Prop := Forall (fun v => is_id v = true) (formal_names formals) /\ different formals.
  (** the variable s of the innermost formals with this name has the name of another one around it *)
  Definition has (s : nat) (f : form) : bool := match spot (Sym s) f 0 with Some _ => true | None => false end.
  Fixpoint shadowing (s : nat) (env : list form) : bool :=
    match env with
    | [] => false
    | f :: env => if has s f then existsb (memq (Sym s)) env else shadowing s env
    end.
  (** Forms whose closures are aliases *)
  Definition alias (c : form) : Prop := match c with Clo _ [] _ Nil (Sym _) => True | _ => False end.
  Fixpoint closures (ok : form -> Prop) (x : form) : Prop :=
    match x with
    | Pair a d => closures ok a /\ closures ok d
    | Clo _ _ _ _ _ => ok x
    | Mac _ _ _ _ => False
    | _ => True
    end.
  Definition id_of (x : form) : nat := match x with Clo id _ _ _ _ => id | _ => 0 end.
  Definition below (n : nat) (x : form) : Prop := closures (fun c => alias c /\ id_of c < n) x.
  (** The form that the use x of a macro stands for, with aliases from n on *)
  Definition stands_for (tp : template) (g' n : nat) : form := fst (fst (write_out g' tp [] n)).
  Definition not_shadowing (env : list form) (tp : template) : Prop := match tp with TForm (Sym s) => shadowing s env = false | _ => True end.
  (** Quoted data, without the aliases *)
  Fixpoint strip (x : form) : form :=
    match x with
    | Pair a d => Pair (strip a) (strip d)
    | Clo _ _ _ _ f => f
    | x => x
    end.
  Definition simple_datum (x : form) : Prop := is_id x = true \/ closures (fun _ => False) x.
  Definition local_free (v : form) (env : list form) : Prop := match v with Sym s => existsb (memq v) env = false | _ => True end.
  Definition not_macro (v : form) : Prop := keyword_content v = None.
  Definition careful_variable (env : list form) (v : form) : Prop :=
    match v with
    | Sym s => existsb (memq v) env = true -> not_macro v
    | _ => not_macro v
    end.
  Definition spliced (k : nat) : bool := (k =? k_begin) || (k =? k_define) || (k =? k_define_syntax).
  (** an expression that is neither spliced into a body nor the use of a macro *)
  Definition expression (env : list form) (x : form) : Prop :=
    match x with
    | Pair a _ => is_id a = true -> match kind env a with Some (Syntax k) => spliced k = false | Some (Macro _ _) => False | _ => True end
    | _ => True
    end.
  Fixpoint assignments (j : nat) (inits : list code) : list code := match inits with [] => [] | c :: cs => CSet (CLocal 0 j) c :: assignments (S j) cs end.

  Fixpoint defining (env : list form) (ds : form) : Prop :=
    match ds with Pair (Pair q _) ds => syntax env q k_define /\ defining env ds | Nil => True | _ => False end.

  Inductive means (env : list form) : form -> code -> Prop :=
  | M_variable v c : is_id v = true -> kind env v = None -> denotes env v c -> means env v c
  | M_nil : means env Nil (CConst Nil)
  | M_atom k : means env (Atom k) (CConst (Atom k))
  | M_quote q x : syntax env q k_quote -> (careful = true -> simple_datum x) -> means env (flist [q; x]) (CConst (strip x))
  | M_if q xs cs : syntax env q k_if -> all_mean env xs cs -> means env (Pair q xs) (CIf cs)
  | M_begin q xs cs : syntax env q k_begin -> all_mean env xs cs -> means env (Pair q xs) (CSeq cs)
  | M_set q v x cv c : syntax env q k_set -> is_id v = true -> kind env v = None -> denotes env v cv -> means env x c -> means env (flist [q; v; x]) (CSet cv c)
  | M_lambda q formals xs cs : syntax env q k_lambda -> formals_ok formals ->
      (careful = true -> Forall (careful_variable env) (formal_names formals)) ->
      body_means (formals :: env) xs cs -> means env (Pair q (Pair formals xs)) (CLambda (required formals) (has_rest formals) cs)
  | M_letrec q specs xs inits cs : syntax env q k_letrec -> formals_ok (variables_of specs) ->
      (careful = true -> Forall (fun v => local_free v env /\ careful_variable env v) (formal_names (variables_of specs))) ->
      specs_mean (variables_of specs :: env) specs inits -> body_means (variables_of specs :: env) xs cs -> means env (Pair q (Pair specs xs)) (CLetrec inits cs)
  | M_macro q t g' xs tp c : is_id q = true -> kind env q = Some (Macro t g') -> macro t (Pair q xs) = Some tp -> (careful = true -> not_shadowing env tp) ->
      (forall n, Forall (below n) env -> below n (Pair q xs) -> means env (stands_for tp g' n) c) ->
      means env (Pair q xs) c
  | M_call f xs c cs : (is_id f = true -> kind env f = None) -> means env f c -> all_mean env xs cs -> means env (Pair f xs) (CCall c cs (CConst Nil))
  with all_mean (env : list form) : form -> list code -> Prop :=
  | A_nil : all_mean env Nil []
  | A_cons x xs c cs : means env x c -> all_mean env xs cs -> all_mean env (Pair x xs) (c :: cs)
  with specs_mean (env : list form) : form -> list code -> Prop :=
  | S_nil : specs_mean env Nil []
  | S_cons v x specs c cs : means env x c -> specs_mean env specs cs -> specs_mean env (Pair (flist [v; x]) specs) (c :: cs)
  (** The forms of a body.  begin is spliced; the definitions at the front are variables of the body *)
  with body_means (env : list form) : form -> list code -> Prop :=
  | B_items xs cs : items_mean env xs cs -> body_means env xs cs
  | B_definitions ds vs xs inits cs : is_pair ds = true -> definitions_mean (vs :: env) env ds vs inits -> items_mean (vs :: env) xs cs ->
      formals_ok vs -> (careful = true -> Forall (fun v => local_free v env /\ not_macro v) (formal_names vs)) ->
      body_means env (join ds xs) [CCall (CLambda (required vs) false (assignments 0 inits ++ cs)) (repeat (CConst Nil) (required vs)) (CConst Nil)]
  (** a definition that a macro stands for *)
  | B_macro ds q t g' xs tp rest cs : (careful = true -> False) -> defining env ds -> is_id q = true -> kind env q = Some (Macro t g') -> macro t (Pair q xs) = Some tp ->
      (forall n, Forall (below n) env -> below n (join ds (Pair (Pair q xs) rest)) -> body_means env (join ds (Pair (stands_for tp g' n) rest)) cs) ->
      body_means env (join ds (Pair (Pair q xs) rest)) cs
  with items_mean (env : list form) : form -> list code -> Prop :=
  | I_nil : items_mean env Nil []
  | I_cons x xs c cs : item_means env x c -> items_mean env xs cs -> items_mean env (Pair x xs) (c ++ cs)
  with item_means (env : list form) : form -> list code -> Prop :=
  | I_expression x c : expression env x -> means env x c -> item_means env x [c]
  | I_begin q xs cs : syntax env q k_begin -> items_mean env xs cs -> item_means env (Pair q xs) cs
  | I_macro q t g' xs tp cs : is_id q = true -> kind env q = Some (Macro t g') -> macro t (Pair q xs) = Some tp -> (careful = true -> not_shadowing env tp) ->
      (forall n, Forall (below n) env -> below n (Pair q xs) -> item_means env (stands_for tp g' n) cs) ->
      item_means env (Pair q xs) cs
  (** the definitions ds of the variables vs, with the keywords of the environment outer:
      (define v e) and (define (v . formals) . body) *)
  with definitions_mean (env : list form) : list form -> form -> form -> list code -> Prop :=
  | D_nil outer : definitions_mean env outer Nil Nil []
  | D_variable outer q v x ds vs c cs : syntax outer q k_define -> is_id v = true -> means env x c -> definitions_mean env outer ds vs cs ->
      definitions_mean env outer (Pair (flist [q; v; x]) ds) (Pair v vs) (c :: cs)
  | D_procedure outer q v formals xs ds vs c cs : syntax outer q k_define -> is_id v = true -> formals_ok formals ->
      (careful = true -> Forall (careful_variable env) (formal_names formals)) ->
      body_means (formals :: env) xs c -> definitions_mean env outer ds vs cs ->
      definitions_mean env outer (Pair (Pair q (Pair (Pair v formals) xs)) ds) (Pair v vs) (CLambda (required formals) (has_rest formals) c :: cs).

  (** The forms of a program: definitions and expressions *)
  Inductive program_means : form -> code -> Prop :=
  | P_expression x c : means [] x c -> program_means x c
  | P_variable q v x c : syntax [] q k_define -> is_id v = true -> match cell v with None => exists s, v = Sym s | Some _ => True end -> means [] x c ->
      program_means (flist [q; v; x]) (CDefine (match cell v with Some k => CGlobal k | None => CNew v end) [c])
  | P_procedure q v formals xs c : syntax [] q k_define -> is_id v = true -> match cell v with None => exists s, v = Sym s | Some _ => True end -> formals_ok formals ->
      (careful = true -> Forall (careful_variable []) (formal_names formals)) -> body_means [formals] xs c ->
      program_means (Pair q (Pair (Pair v formals) xs)) (CDefine (match cell v with Some k => CGlobal k | None => CNew v end) [CLambda (required formals) (has_rest formals) c]).
End Spec.
(** The parts of the form in a template have no other closures than the form *)
Fixpoint template_parts (ok : form -> Prop) (tp : template) : Prop :=
  match tp with
  | TForm x => closures ok x
  | TPair a d => template_parts ok a /\ template_parts ok d
  | _ => True
  end.
