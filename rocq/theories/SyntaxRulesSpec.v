(** * What syntax-rules should do: R7RS 4.3.2

    Which forms match a pattern and what is bound by it ([matching]), what a template
    stands for ([instance]), and which rule applies ([choose]).  Nothing here is compiled:
    the pattern variables followed by ellipses are bound to sequences.  Only the type of
    forms is shared with the model. *)
From Coq Require Import List Arith Lia Bool.
From Verif Require Import SyntaxRules.
Import ListNotations.
Open Scope nat_scope.

(** What a pattern variable is bound to: a form, or a sequence when an ellipsis follows *)
Inductive binding := One (d : datum) | Many (l : list binding).
Definition bindings := list (nat * binding).
Fixpoint get (s : bindings) (x : nat) : option binding :=
  match s with [] => None | (y, b) :: s => if x =? y then Some b else get s x end.
(** Lists, proper or not *)
Fixpoint pairs (x : datum) : nat := match x with Pair _ d => S (pairs d) | _ => 0 end.
Fixpoint elements (x : datum) : list datum := match x with Pair a d => a :: elements d | _ => [] end.
Fixpoint after (n : nat) (x : datum) : datum := match n, x with S n, Pair _ d => after n d | _, _ => x end.
(** A list that ends with () *)
Fixpoint closed (x : datum) : bool := match x with Nil => true | Pair _ d => closed d | _ => false end.
Fixpoint prepend (l : list datum) (x : datum) : datum := match l with [] => x | a :: l => Pair a (prepend l x) end.
Fixpoint identifiers (t : datum) : list nat :=
  match t with Id x => [x] | Pair a d => identifiers a ++ identifiers d | Vec l => identifiers l | _ => [] end.
Fixpoint every {A} (l : list (option A)) : option (list A) :=
  match l with
  | [] => Some []
  | Some x :: l => match every l with Some l => Some (x :: l) | None => None end
  | None :: _ => None
  end.
Definition both (r s : option bindings) : option bindings := match r, s with Some r, Some s => Some (r ++ s) | _, _ => None end.
Definition same (x y : datum) : bool := if (ltac:(decide equality; try apply Nat.eq_dec; apply Bool.bool_dec) : {x = y} + {x <> y}) then true else false.

Section Spec.
  (** the ellipsis; the literals; the identifier _; which forms are the same identifier as a literal *)
  Variables (is_ellipsis : datum -> bool) (literal blank : nat -> bool) (fits : nat -> datum -> bool).
  Definition starts (q : datum) : bool := match q with Pair e _ => is_ellipsis e | _ => false end.
  (** The pattern variables *)
  Fixpoint variables (p : datum) : list nat :=
    match p with
    | Id x => if literal x || blank x then [] else [x]
    | Pair a q => if starts q then variables a ++ match q with Pair _ r => variables r | _ => [] end else variables a ++ variables q
    | Vec l => variables l
    | _ => []
    end.
  (** A variable of a pattern with an ellipsis is bound to the sequence of what it is bound to in each match *)
  Definition sequences (xs : list nat) (ss : list bindings) : bindings :=
    map (fun x => (x, Many (map (fun s => match get s x with Some b => b | None => One Nil end) ss))) xs.
  (** R7RS 4.3.2: "an input expression E matches a pattern P if and only if" *)
  Fixpoint matching (p d : datum) {struct p} : option bindings :=
    match p with
    | Id x =>
      if literal x then if fits x d then Some [] else None
      else if blank x then Some []
      else Some [(x, One d)]
    | Pair a q =>
      if starts q then
        match q with
        | Pair _ r =>
          if pairs r <=? pairs d then
            let n := pairs d - pairs r in
            match every (map (matching a) (firstn n (elements d))) with
            | Some ss => both (Some (sequences (variables a) ss)) (matching r (after n d))
            | None => None
            end
          else None
        | _ => None
        end
      else match d with Pair x y => both (matching a x) (matching q y) | _ => None end
    | Vec l => match d with Vec m => matching l m | _ => None end
    | _ => if same d p then Some [] else None
    end.
  (** The rule that applies to a form with these arguments: the first whose pattern, without the keyword, matches *)
  Fixpoint choose (rules : list (datum * datum)) (args : datum) : option (bindings * datum) :=
    match rules with
    | [] => None
    | (Pair _ p, t) :: rules => match matching p args with Some s => Some (s, t) | None => choose rules args end
    | _ :: rules => choose rules args
    end.

  (** ** Templates *)
  (** What the macro makes of the identifiers it puts in *)
  Variable rename : nat -> datum.
  (** q is n ellipses and then r *)
  Fixpoint dots (n : nat) (q r : datum) : Prop :=
    match n with
    | 0 => q = r /\ starts r = false
    | S n => exists e q', q = Pair e q' /\ is_ellipsis e = true /\ dots n q' r
    end.
  (** The variables of a template which are bound to sequences *)
  Definition again (s : bindings) (t : datum) : list nat :=
    filter (fun x => match get s x with Some (Many _) => true | _ => false end) (identifiers t).
  (** The bindings for copy number i *)
  Definition pick (i : nat) (xs : list nat) (s : bindings) : bindings :=
    map (fun '(x, b) => (x, if existsb (Nat.eqb x) xs then match b with Many l => nth i l (One Nil) | _ => b end else b)) s.
  (** [instance active s t d]: d is the template t filled in by s; [copies s t n ds]: ds are the copies of t followed by n ellipses *)
  Inductive instance : bool -> bindings -> datum -> datum -> Prop :=
  | I_variable active s x d : get s x = Some (One d) -> instance active s (Id x) d
  | I_name active s x : get s x = None -> instance active s (Id x) (rename x)
  | I_nil active s : instance active s Nil Nil
  | I_bool active s b : instance active s (Bool b) (Bool b)
  | I_int active s n : instance active s (Int n) (Int n)
  | I_other active s n : instance active s (Other n) (Other n)
  | I_vector active s l d : instance active s l d -> instance active s (Vec l) (Vec d)
  | I_escape s e t d : is_ellipsis e = true -> instance false s t d -> instance true s (Pair e (Pair t Nil)) d
  | I_pair active s a q x y :
      (active = true -> is_ellipsis a = false /\ starts q = false) ->
      instance active s a x -> instance active s q y -> instance active s (Pair a q) (Pair x y)
  | I_ellipsis s a q n r ds y :
      is_ellipsis a = false -> dots (S n) q r ->
      copies s a (S n) ds -> instance true s r y -> instance true s (Pair a q) (prepend ds y)
  with copies : bindings -> datum -> nat -> list datum -> Prop :=
  | C_one s t d : instance true s t d -> copies s t 0 [d]
  | C_many s t n k dss :
      again s t <> [] ->
      (forall x, In x (again s t) -> exists l, get s x = Some (Many l) /\ length l = k) ->
      length dss = k -> (forall i, i < k -> copies (pick i (again s t) s) t n (nth i dss [])) ->
      copies s t (S n) (concat dss).

  (** ** The rules that the theorems are about *)
  (** No literal is followed by an ellipsis *)
  Fixpoint careful_pattern (p : datum) : bool :=
    match p with
    | Pair a q =>
      if starts q then match a with Id x => negb (literal x) | _ => true end && careful_pattern a &&
                       match q with Pair _ r => careful_pattern r | _ => true end
      else careful_pattern a && careful_pattern q
    | Vec l => careful_pattern l
    | _ => true
    end.
  (** No (... ...), two ellipses only after an identifier *)
  Inductive careful_template : datum -> Prop :=
  | P_id x : careful_template (Id x)
  | P_nil : careful_template Nil
  | P_bool b : careful_template (Bool b)
  | P_int n : careful_template (Int n)
  | P_other n : careful_template (Other n)
  | P_vector l : closed l = true -> careful_template l -> careful_template (Vec l)
  | P_pair a q : is_ellipsis a = false -> starts q = false -> careful_template a -> careful_template q -> careful_template (Pair a q)
  | P_ellipsis a q n r : is_ellipsis a = false -> dots (S n) q r -> (n = 0 \/ exists x, a = Id x) ->
      careful_template a -> careful_template r -> careful_template (Pair a q).
  (** No variable twice in a pattern, no _ in a template *)
  Definition careful_rule (rule : datum * datum) : Prop :=
    exists k p, fst rule = Pair k p /\ careful_pattern p = true /\ NoDup (variables p) /\
      careful_template (snd rule) /\ (forall x, In x (identifiers (snd rule)) -> blank x = false).
  (** ** What is a syntax error: R7RS 4.3.2 *)
  (** At most one ellipsis in a list of a pattern *)
  Fixpoint no_ellipsis (q : datum) : bool := match q with Pair e q => negb (is_ellipsis e) && no_ellipsis q | _ => true end.
  Fixpoint legal_pattern (p : datum) : bool :=
    match p with
    | Pair a q =>
      if starts q then legal_pattern a && match q with Pair _ r => no_ellipsis r && legal_pattern r | _ => true end
      else legal_pattern a && legal_pattern q
    | Vec l => legal_pattern l
    | _ => true
    end.
  (** The number of ellipses that a variable is under *)
  Fixpoint level (p : datum) (x : nat) : option nat :=
    match p with
    | Id y => if literal y || blank y then None else if x =? y then Some 0 else None
    | Pair a q =>
      if starts q then match level a x with Some n => Some (S n) | None => match q with Pair _ r => level r x | _ => None end end
      else match level a x with Some n => Some n | None => level q x end
    | Vec l => level l x
    | _ => None
    end.
  (** Not too few and not too many ellipses in a template that is under dim ellipses *)
  Inductive legal_template (p : datum) : nat -> datum -> Prop :=
  | L_id dim x : (forall n, level p x = Some n -> n <= dim) -> legal_template p dim (Id x)
  | L_nil dim : legal_template p dim Nil
  | L_bool dim b : legal_template p dim (Bool b)
  | L_int dim n : legal_template p dim (Int n)
  | L_other dim n : legal_template p dim (Other n)
  | L_vector dim l : legal_template p dim l -> legal_template p dim (Vec l)
  | L_pair dim a q : is_ellipsis a = false -> starts q = false -> legal_template p dim a -> legal_template p dim q -> legal_template p dim (Pair a q)
  | L_ellipsis dim a q n r x k : is_ellipsis a = false -> dots (S n) q r ->
      In x (identifiers a) -> level p x = Some k -> dim + S n <= k ->
      legal_template p (dim + S n) a -> legal_template p dim r -> legal_template p dim (Pair a q).
  Definition legal_rule (rule : datum * datum) : Prop :=
    exists k p, fst rule = Pair k p /\ legal_pattern p = true /\ legal_template p 0 (snd rule).
End Spec.
