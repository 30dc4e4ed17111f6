(** The expander: src/kernel/expander.cpp, the functions identify, expand and sweep of
    src/kernel/syntactic_environment.cpp, src/kernel/syntactic_closure.cpp, and the macro
    transformers of library/meevax.ss:15-41.

    Objects.  A form is a tree whose leaves are symbols, constants and objects with an identity:
    a syntactic closure [Clo id scope globals free form] and a macro of let-syntax
    [Mac keyword transformer scope globals].  A list of bound variables is a list of formals, each with
    the identity of its pair, which is what eq sees (syntactic_closure.cpp:110).  The list of the global
    variables of an environment (its member second) does not change while a form is expanded; it is
    named by a number and given by [second], a list of symbols and cells; [content] is
    what the cells hold.  Fresh identities come from a counter.

    Simplifications.  A transformer is a Gallina function of the form, the two
    environments and the counter in the place of a closure that the machine applies
    (transformer.cpp:24-45); [spec_value] is the transformer that a transformer
    spec evaluates to.  letrec-syntax, internal syntax definitions, include and
    conditional-expand are not modelled: [Bad], like undefined behaviour.  [Out] is
    that the fuel is used up.  The member de_bruijn_level of a syntactic closure is left out; it is
    read by operator << only (syntactic_closure.cpp:164-174).  C++ does not fix the order in
    which the arguments of cons and list are evaluated; here it is from left to right.  The order shows in
    the fresh identities, and after a letrec in what its dictionary entries reach. *)
From Coq Require Import List Bool Arith.
Import ListNotations.

(** object.hpp; syntactic_closure.hpp:25-56, identity.hpp:31-34 *)
Inductive form :=
| Nil | Atom (n : nat) | Sym (s : nat) | Pair (a d : form)
| Clo (id : nat) (E : list (nat * form)) (g : nat) (free f : form)
| Mac (key : form) (t : nat) (E : list (nat * form)) (g : nat).
(** the member first of syntactic_environment *)
Definition scope := list (nat * form).
(** list.hpp: list *)
Fixpoint flist (l : list form) : form := match l with [] => Nil | x :: l => Pair x (flist l) end.

(** The keywords of the core, syntactic_environment.cpp:333-360, as symbols and as syntax *)
Definition k_begin := 0.  Definition k_callcc := 1.  Definition k_cond_expand := 2.  Definition k_current := 3.
Definition k_define := 4.  Definition k_define_syntax := 5.  Definition k_if := 6.  Definition k_include := 7.
Definition k_include_ci := 8.  Definition k_install := 9.  Definition k_lambda := 10.  Definition k_let_syntax := 11.
Definition k_letrec := 12.  Definition k_letrec_syntax := 13.  Definition k_quote := 14.  Definition k_quote_syntax := 15.
Definition k_set := 16.
Definition keywords := 17.
(** what the cdr of an absolute holds, identity.hpp:24-27: syntax.hpp, transformer.hpp or a value *)
Inductive binding := Syntax (k : nat) | Macro (t g : nat) | Value.
(** identity.hpp:24-49: what an identifier denotes; [Unknown] is #f *)
Inductive ident := Unknown | Relative (i j : nat) | Variadic (i j : nat) | Absolute (c : nat) | LocalMacro (t : nat) (E : scope) (g : nat).

(** identifier.hpp:22-23; symbol and syntactic_closure are derived from it *)
Definition is_id (x : form) : bool := match x with Sym _ | Clo _ _ _ _ _ => true | _ => false end.
(** eq (comparator.hpp) on identifiers *)
Definition same (x y : form) : bool :=
  match x, y with
  | Sym s, Sym t => s =? t
  | Clo i _ _ _ _, Clo j _ _ _ _ => i =? j
  | _, _ => false
  end.
(** eq on lists of bound variables, syntactic_closure.cpp:110 *)
Definition same_scope (x y : scope) : bool :=
  match x, y with
  | [], [] => true
  | (i, _) :: _, (j, _) :: _ => i =? j
  | _, _ => false
  end.
(** list.cpp:340-357 *)
Fixpoint memq (x l : form) : bool := match l with Pair a d => same x a || memq x d | _ => false end.
(** list.cpp:378-395 *)
Fixpoint assq {A} (s : nat) (l : list (nat * A)) : option A :=
  match l with
  | [] => None
  | (t, x) :: l => if s =? t then Some x else assq s l
  end.
(** list.cpp:253-263, 248-251; pair.hpp: car, cdr; map(car, specs) of expander.cpp:192 *)
Fixpoint append (x y : form) : form := match x with Pair a d => Pair a (append d y) | _ => y end.
Fixpoint len (x : form) : nat := match x with Pair _ d => S (len d) | _ => 0 end.
Definition car (x : form) : form := match x with Pair a _ => a | _ => Nil end.
Definition cdr (x : form) : form := match x with Pair _ d => d | _ => Nil end.
Definition is_pair (x : form) : bool := match x with Pair _ _ => true | _ => false end.
Fixpoint map_car (x : form) : form := match x with Pair a d => Pair (car a) (map_car d) | _ => Nil end.

(** the inner loop of identify, syntactic_environment.cpp:137-156; the cdr of an identifier at the
    end of the formals is the empty list *)
Fixpoint find_formals (v formals : form) (i j : nat) : ident :=
  match formals with
  | Pair a d =>
    match a with
    | Mac key t E g => if same key v then LocalMacro t E g else find_formals v d i (S j)
    | _ => if same a v then Relative i j else find_formals v d i (S j)
    end
  | Nil => Unknown
  | x => if is_id x && same x v then Variadic i j else Unknown
  end.
(** the outer loop, 135-159 *)
Fixpoint find_bound (v : form) (bv : scope) (i : nat) : ident :=
  match bv with
  | [] => Unknown
  | (_, formals) :: bv => match find_formals v formals i 0 with Unknown => find_bound v bv (S i) | r => r end
  end.
(** syntactic_closure.cpp:126-131: empty formals in front *)
Definition pad (E bv : scope) : scope := repeat (0, Nil) (length bv - length E) ++ E.

(** ** Alpha conversion, syntactic_closure.hpp:27-42 *)
Record alpha := Alpha { a_scope : scope; a_globals : nat; a_free : form; a_dict : list (nat * form) }.
(** An alpha and its outer ones.  syntactic_closure.cpp:89-94 *)
Definition make_closure (s : nat) (A : list alpha) (n : nat) : form * list alpha * nat :=
  match A with
  | a :: A => let c := Clo n (a_scope a) (a_globals a) Nil (Sym s) in
              (c, Alpha (a_scope a) (a_globals a) (a_free a) ((s, c) :: a_dict a) :: A, S n)
  | [] => (Sym s, A, n)
  end.
(** syntactic_closure.cpp:34-57 *)
Fixpoint convert_sym (s : nat) (A : list alpha) (n : nat) : form * list alpha * nat :=
  match A with
  | [] => (Sym s, A, n)
  | a :: A' =>
    if memq (Sym s) (a_free a) then
      match A' with
      | [] => (Sym s, A, n)
      | _ => let '(x, A', n) := convert_sym s A' n in (x, a :: A', n)
      end
    else match assq s (a_dict a) with
         | Some x => (x, A, n)
         | None => match A' with [] => (Sym s, A, n) | _ => make_closure s A n end
         end
  end.
Definition convert (x : form) (A : list alpha) (n : nat) : form * list alpha * nat :=
  match x with Sym s => convert_sym s A n | _ => (x, A, n) end.
(** syntactic_closure.cpp:59-87 *)
Fixpoint convert_formals (formals : form) (bv : scope) (A : list alpha) (n : nat) : form * list alpha * nat :=
  let one x A n := match x with
                   | Sym s => if existsb (fun f => memq x (snd f)) bv then make_closure s A n else (x, A, n)
                   | _ => (x, A, n)
                   end in
  match formals with
  | Pair a d => let '(a, A, n) := one a A n in let '(d, A, n) := convert_formals d bv A n in (Pair a d, A, n)
  | x => one x A n
  end.

(** the result of a partial function; see Simplifications *)
Inductive outcome (T : Type) := Ok (x : T) | Bad | Out.
Arguments Ok {T} x.  Arguments Bad {T}.  Arguments Out {T}.
Definition bind {S T} (o : outcome S) (f : S -> outcome T) : outcome T := match o with Ok x => f x | Bad => Bad | Out => Out end.
Notation "'do' ' p <- o ; f" := (bind o (fun p => f)) (at level 200, p strict pattern, f at level 200).
Definition result := outcome (form * list alpha * nat).

Section Expander.
  Variable second : nat -> list (nat * nat).
  Variable content : nat -> binding.
  Variable transform : nat -> form -> scope * nat -> scope * nat -> nat -> option (form * nat).
  Variable spec_value : form -> option nat.
  (** the number of core_syntactic_environment, syntactic_environment.cpp:333-360 *)
  Definition core := 0.

  (** assq of a symbol in second, syntactic_environment.cpp:168 *)
  Definition lookup (s g : nat) : ident := match assq s (second g) with Some c => Absolute c | None => Unknown end.
  (** identify of a syntactic environment with globals g, syntactic_environment.cpp:130-170, and of a syntactic
      closure, syntactic_closure.cpp:122-144 *)
  Fixpoint identify (v : form) (g : nat) (bv : scope) : ident :=
    match find_bound v bv 0 with
    | Unknown =>
      match v with
      | Sym s => lookup s g
      | Clo _ E g' _ f =>
        if is_id f then match identify f g' (pad E bv) with Unknown => identify f g' bv | r => r end
        else Unknown
      | _ => Unknown
      end
    | r => r
    end.
  (** syntactic_closure.cpp:122-144 *)
  Definition closure_identify (v : form) (bv : scope) : ident :=
    match v with
    | Clo _ E g' _ f => match identify f g' (pad E bv) with Unknown => identify f g' bv | r => r end
    | _ => Unknown
    end.
  (** syntactic_environment.cpp:362-365 *)
  Definition default_rename (k n : nat) : form * nat := (Clo n [] core Nil (Sym k), S n).
  (** identity != f, syntactic_closure.cpp:136 *)
  Definition known (r : ident) : bool := match r with Unknown => false | _ => true end.
  (** the alpha without that of a closure (syntactic_closure.cpp:116) or lambda expression (the copy of
      expander.cpp:74) inside *)
  Definition pop (A : list alpha) : list alpha := match A with _ :: A => A | [] => [] end.
  Definition unscope (A A' : list alpha) : list alpha := match A with a :: _ => a :: pop A' | [] => A' end.
  (** the macro that a keyword denotes, with its environment: syntactic_environment.cpp:73-85 *)
  Inductive keyword := KSyntax (k : nat) | KMacro (t : nat) (E : scope) (g : nat) | KNone.
  Definition keyword_of (r : ident) : keyword :=
    match r with
    | Absolute c => match content c with Syntax k => KSyntax k | Macro t g => KMacro t [] g | Value => KNone end
    | LocalMacro t E g => KMacro t E g
    | _ => KNone
    end.
  (** transformer.cpp:24-45 *)
  Definition run_macro (t : nat) (x : form) (use mac : scope * nat) (n : nat) : outcome (form * nat) :=
    match transform t x use mac n with Some r => Ok r | None => Bad end.
  (** expander.cpp:230-239: the macros of let-syntax *)
  Fixpoint macros (specs : form) (bv : scope) (g : nat) : outcome form :=
    match specs with
    | Pair s specs => match spec_value (car (cdr s)) with
                      | Some t => bind (macros specs bv g) (fun r => Ok (Pair (Mac (car s) t bv g) r))
                      | None => Bad
                      end
    | _ => Ok Nil
    end.
  (** expander.cpp:108-114: the assignments in front of the sequence *)
  Fixpoint assignments (reversed_specs sequence : form) (n : nat) : form * nat :=
    match reversed_specs with
    | Pair spec rest => let '(k, n) := default_rename k_set n in assignments rest (Pair (Pair k spec) sequence) n
    | _ => (sequence, n)
    end.
  (** make_list(length(formals), unit), expander.cpp:128 *)
  Fixpoint units (k : nat) : form := match k with 0 => Nil | S k => Pair Nil (units k) end.

  (** syntactic_environment.cpp:52-89 *)
  Fixpoint expand (fuel : nat) (g : nat) (x : form) (bv : scope) (A : list alpha) (n : nat) {struct fuel} : result :=
    match fuel with
    | 0 => Out
    | S fuel =>
      match x with
      | Pair a d =>
        if is_id a then
          let '(i, A, n) := convert a A n in
          let r := match i with Clo _ _ _ _ _ => closure_identify i bv | _ => identify a g bv end in
          match keyword_of r with
          | KMacro t E g' => do '(x, n) <- run_macro t x (bv, g) (E, g') n; expand fuel g x bv A n
          | KSyntax k => expand_syntax fuel k g x bv A n
          | KNone => expand_call fuel g x bv A n
          end
        else expand_call fuel g x bv A n
      | Clo _ _ _ _ _ => if known (identify x g bv) then Ok (x, A, n) else expand_closure fuel x bv A n
      | Sym _ => Ok (convert x A n)
      | _ => Ok (x, A, n)
      end
    end
  (** syntactic_closure.cpp:108-120 *)
  with expand_closure (fuel : nat) (x : form) (bv : scope) (A : list alpha) (n : nat) {struct fuel} : result :=
    match fuel with
    | 0 => Out
    | S fuel =>
      match x with
      | Clo _ E g free f =>
        if same_scope E bv then expand fuel g f bv A n
        else do '(y, A, n) <- expand fuel g f bv (Alpha E g free [] :: A) n; Ok (y, pop A, n)
      | _ => Bad
      end
    end
  (** expander.cpp:43-52 *)
  with expand_call (fuel : nat) (g : nat) (x : form) (bv : scope) (A : list alpha) (n : nat) {struct fuel} : result :=
    match fuel with
    | 0 => Out
    | S fuel =>
      do '(a, A, n) <- expand fuel g (car x) bv A n;
      do '(d, A, n) <- operand fuel g (cdr x) bv A n;
      Ok (Pair a d, A, n)
    end
  (** expander.cpp:54-70; sequence, 210-226, is the same *)
  with operand (fuel : nat) (g : nat) (x : form) (bv : scope) (A : list alpha) (n : nat) {struct fuel} : result :=
    match fuel with
    | 0 => Out
    | S fuel =>
      match x with
      | Pair a d =>
        do '(a, A, n) <- expand fuel g a bv A n;
        do '(d, A, n) <- operand fuel g d bv A n;
        Ok (Pair a d, A, n)
      | _ => expand fuel g x bv A n
      end
    end
  (** the expanders of the core, expander.cpp *)
  with expand_syntax (fuel : nat) (k : nat) (g : nat) (x : form) (bv : scope) (A : list alpha) (n : nat) {struct fuel} : result :=
    match fuel with
    | 0 => Out
    | S fuel =>
      if (k =? k_quote) || (k =? k_quote_syntax) then Ok (x, A, n)                                 (* 33-41 *)
      else if (k =? k_if) || (k =? k_set) || (k =? k_callcc) || (k =? k_current) || (k =? k_install) then  (* 148-164, 302-327 *)
        let '(a, A, n) := convert (car x) A n in
        do '(d, A, n) <- operand fuel g (cdr x) bv A n;
        Ok (Pair a d, A, n)
      else if k =? k_begin then operand fuel g x bv A n                                            (* 210-226 *)
      else if k =? k_lambda then                                                                   (* 72-84 *)
        let '(formals, A', n) := convert_formals (car (cdr x)) bv A n in
        do '(b, A', n) <- body fuel g (cdr (cdr x)) ((n, formals) :: bv) A' (S n);
        let '(a, A, n) := convert (car x) (unscope A A') n in
        Ok (Pair a (Pair formals b), A, n)
      else if k =? k_letrec then                                                                   (* 190-208 *)
        let '(formals, A, n) := convert_formals (map_car (car (cdr x))) bv A n in
        let bv' := (n, formals) :: bv in
        do '(specs, A, n) <- binding_specs fuel g (car (cdr x)) bv' A (S n);
        do '(b, A, n) <- body fuel g (cdr (cdr x)) bv' A n;
        Ok (Pair (car x) (Pair specs b), A, n)
      else if k =? k_let_syntax then                                                               (* 228-246 *)
        do ' formals <- macros (car (cdr x)) bv g;
        let '(l, n) := default_rename k_lambda n in
        expand fuel g (flist [Pair l (Pair formals (cdr (cdr x)))]) bv A n
      else if k =? k_define then                                                                   (* 270-291 *)
        match car (cdr x) with
        | Pair v formals =>
          let '(a, A, n) := convert (car x) A n in
          let '(l, n) := default_rename k_lambda n in
          do '(e, A, n) <- expand fuel g (Pair l (Pair formals (cdr (cdr x)))) bv A n;
          Ok (flist [a; v; e], A, n)
        | v =>
          let '(a, A, n) := convert (car x) A n in
          match cdr (cdr x) with
          | Pair e _ => do '(e, A, n) <- expand fuel g e bv A n; Ok (flist [a; v; e], A, n)
          | _ => Ok (flist [a; v], A, n)
          end
        end
      else Bad
    end
  (** the map of letrec, expander.cpp:196-203 *)
  with binding_specs (fuel : nat) (g : nat) (specs : form) (bv : scope) (A : list alpha) (n : nat) {struct fuel} : result :=
    match fuel with
    | 0 => Out
    | S fuel =>
      match specs with
      | Pair s specs =>
        do '(e, A, n) <- expand fuel g (car (cdr s)) bv A n;
        do '(specs, A, n) <- binding_specs fuel g specs bv A n;
        Ok (Pair (flist [car s; e]) specs, A, n)
      | _ => Ok (Nil, A, n)
      end
    end
  (** expander.cpp:86-146 *)
  with body (fuel : nat) (g : nat) (x : form) (bv : scope) (A : list alpha) (n : nat) {struct fuel} : result :=
    match fuel with
    | 0 => Out
    | S fuel =>
      do '(specs, sequence, cur, A, n) <- sweep fuel g x x bv bv A n Nil Nil;
      match specs with
      | Pair _ _ =>
        let formals := match cur with (_, f) :: _ => f | [] => Nil end in
        let '(sequence, n) := assignments specs sequence n in
        let '(l, n) := default_rename k_lambda n in
        expand fuel g (flist [Pair (Pair l (Pair formals sequence)) (units (len formals))]) bv A n
      | _ =>
        match sequence with
        | Pair a d =>
          do '(a, A, n) <- expand fuel g a bv A n;
          do '(d, A, n) <- body fuel g d bv A n;
          Ok (Pair a d, A, n)
        | _ => expand fuel g sequence bv A n
        end
      end
    end
  (** syntactic_environment.cpp:203-331; cur is the scope of current_environment *)
  with sweep (fuel : nat) (g : nat) (x sequence : form) (bv cur : scope) (A : list alpha) (n : nat) (formals specs : form) {struct fuel}
    : outcome (form * form * scope * list alpha * nat) :=
    match fuel with
    | 0 => Out
    | S fuel =>
      let stop := Ok (specs, sequence, cur, A, n) in
      let defined v spec rest n :=
        if memq v formals then sweep fuel g x rest bv cur A n formals (Pair spec specs)
        else let formals := append formals (Pair v Nil) in sweep fuel g x x bv ((n, formals) :: bv) A (S n) formals Nil in
      match sequence with
      | Pair a rest =>
        match a with
        | Clo _ _ _ _ _ =>
          if known (identify a g cur) then stop
          else do '(y, A, n) <- expand_closure fuel a cur A n; sweep fuel g x (Pair y rest) bv cur A n formals specs
        | Pair k args =>
          if is_id k then
            match keyword_of (identify k g bv) with
            | KMacro t E g' => do '(y, n) <- run_macro t a (cur, g) (E, g') n; sweep fuel g x (Pair y rest) bv cur A n formals specs
            | KSyntax k =>
              if k =? k_begin then sweep fuel g x (append args rest) bv cur A n formals specs
              else if k =? k_define then
                match car args with
                | Pair v lambda_list => let '(l, n) := default_rename k_lambda n in
                                        defined v (flist [v; Pair l (Pair lambda_list (cdr args))]) rest n
                | v => defined v args rest n
                end
              else if k =? k_define_syntax then Bad
              else stop
            | KNone => stop
            end
          else stop
        | _ => stop
        end
      | _ => stop
      end
    end.
  (** syntactic_environment.cpp:44-50: a form with an alpha of its own *)
  Definition expand_form (fuel : nat) (g : nat) (x : form) (n : nat) : outcome form :=
    do '(y, _, _) <- expand fuel g x [] [Alpha [] g Nil []] n; Ok y.

  (** ** What the generator makes of the expanded form: generator.cpp, syntactic_environment.cpp:91-128.
      [code] is the code without the order of the instructions *)
  Inductive code :=
  | CConst (x : form) | CLocal (i j : nat) | CRest (i j : nat) | CGlobal (c : nat)
  | CNew (x : form)                           (* a new cell for this identifier, 199 *)
  | CCall (f : code) (args : list code) (last : code)
  | CLambda (size : nat) (rest : bool) (body : list code)
  | CIf (l : list code) | CSet (v e : code) | CSeq (l : list code) | CLetrec (inits body : list code)
  | CDefine (v : code) (e : list code) | CCallCC (e : code) | CCurrent (x : form) | CInstall (x : form) (e : code).
  (** syntactic_environment.cpp:100-112 with the identify of 172-201 *)
  Definition variable (v : form) (g : nat) (bv : scope) : code :=
    match identify v g bv with
    | Relative i j => CLocal i j
    | Variadic i j => CRest i j
    | Absolute c => CGlobal c
    | _ => CNew v
    end.
  (** formals that do not end in the empty list: [variadic], syntactic_environment.cpp:150-153 *)
  Fixpoint improper (x : form) : bool := match x with Pair _ d => improper d | Nil => false | _ => true end.
  (** generator.cpp:32-37 *)
  Definition quoted (x : form) : form := match x with Clo _ _ _ _ f => f | _ => x end.
  (** the recursion of generator.cpp:56-72, 84-104, 189-220 over a list of forms *)
  Fixpoint gather (l : list (outcome code)) : outcome (list code) :=
    match l with [] => Ok [] | x :: l => bind x (fun x => bind (gather l) (fun l => Ok (x :: l))) end.
  Fixpoint elements (x : form) : list form := match x with Pair a d => a :: elements d | _ => [] end.
  Fixpoint last_of (x : form) : form := match x with Pair _ d => last_of d | x => x end.
  (** syntactic_environment.cpp:91-128; generator.cpp: quote 32, quote_syntax 39, call 45, operand 56, lambda 74, body 84,
      conditional 106, set 143, letrec 172, sequence 189, define 222, call_with_current_continuation 256,
      current 269, install 275 *)
  Fixpoint generate (fuel : nat) (g : nat) (x : form) (bv : scope) {struct fuel} : outcome code :=
    match fuel with
    | 0 => Out
    | S fuel =>
      let all x bv := gather (map (fun y => generate fuel g y bv) (elements x)) in
      match x with
      | Pair a d =>
        match (if is_id a then keyword_of (identify a g bv) else KNone) with
        | KSyntax k =>
          if k =? k_quote then Ok (CConst (quoted (car d)))
          else if k =? k_quote_syntax then Ok (CConst (car d))
          else if k =? k_lambda then bind (all (cdr d) ((0, car d) :: bv)) (fun b => Ok (CLambda (len (car d)) (improper (car d)) b))
          else if k =? k_if then bind (all d bv) (fun l => Ok (CIf l))
          else if k =? k_set then bind (generate fuel g (car (cdr d)) bv) (fun e => Ok (CSet (variable (car d) g bv) e))
          else if k =? k_begin then bind (all d bv) (fun l => Ok (CSeq l))
          else if k =? k_letrec then
            let bv' := (0, map_car (car d)) :: bv in
            bind (gather (map (fun s => generate fuel g (car (cdr s)) bv') (elements (car d)))) (fun is =>
            bind (all (cdr d) bv') (fun b => Ok (CLetrec is b)))
          else if k =? k_define then
            match bv with
            | [] => bind (all (cdr d) bv) (fun e => Ok (CDefine (variable (car d) g bv) e))
            | _ => Bad
            end
          else if k =? k_callcc then bind (generate fuel g (car d) bv) (fun e => Ok (CCallCC e))
          else if k =? k_current then Ok (CCurrent (car d))
          else if k =? k_install then bind (generate fuel g (car (cdr d)) bv) (fun e => Ok (CInstall (car d) e))
          else Bad
        | _ =>
          bind (generate fuel g a bv) (fun f => bind (all d bv) (fun args =>
          bind (generate fuel g (last_of d) bv) (fun last => Ok (CCall f args last))))
        end
      | Sym _ | Clo _ _ _ _ _ => Ok (variable x g bv)
      | _ => Ok (CConst x)
      end
    end.
  (** syntactic_environment.cpp:31-34 *)
  Definition compile (fuel : nat) (g : nat) (x : form) (n : nat) : outcome code :=
    do ' y <- expand_form fuel g x n; generate fuel g y [].
End Expander.

(** ** Macro transformers, library/meevax.ss:15-41 *)
(** What the procedure of an er-macro-transformer makes: parts of the form, and
    results of rename.  Other identifiers are not put in, and compare is not used. *)
Inductive template := TForm (x : form) | TName (s : nat) | TAtom (n : nat) | TNil | TPair (a d : template).
Fixpoint tlist (l : list template) : template := match l with [] => TNil | x :: l => TPair x (tlist l) end.
(** library/meevax.ss:30-38: rename makes one closure for each symbol *)
Definition rename (mac : scope * nat) (s : nat) (r : list (nat * form)) (n : nat) : form * list (nat * form) * nat :=
  match assq s r with
  | Some x => (x, r, n)
  | None => let x := Clo n (fst mac) (snd mac) Nil (Sym s) in (x, (s, x) :: r, S n)
  end.
(** the result of (f form rename compare), library/meevax.ss:41 *)
Fixpoint instance (mac : scope * nat) (t : template) (r : list (nat * form)) (n : nat) : form * list (nat * form) * nat :=
  match t with
  | TForm x => (x, r, n)
  | TName s => rename mac s r n
  | TAtom k => (Atom k, r, n)
  | TNil => (Nil, r, n)
  | TPair a d => let '(a, r, n) := instance mac a r n in let '(d, r, n) := instance mac d r n in (Pair a d, r, n)
  end.
(** library/meevax.ss:28-41 *)
Definition er_transform (f : form -> option template) (x : form) (use mac : scope * nat) (n : nat) : option (form * nat) :=
  match f x with
  | Some t => let '(y, _, n) := instance mac t [] n in Some (Clo n (fst use) (snd use) Nil y, S n)
  | None => None
  end.
(** library/meevax.ss:15-17: the procedure of an sc-macro-transformer makes a template too, whose symbols are plain and whose
    parts of the form are closed in the environment of the use *)
Fixpoint close_parts (use : scope * nat) (t : template) (n : nat) : form * nat :=
  match t with
  | TForm x => (Clo n (fst use) (snd use) Nil x, S n)
  | TName s => (Sym s, n)
  | TAtom k => (Atom k, n)
  | TNil => (Nil, n)
  | TPair a d => let '(a, n) := close_parts use a n in let '(d, n) := close_parts use d n in (Pair a d, n)
  end.
(** library/meevax.ss:15-17 *)
Definition sc_transform (f : form -> option template) (x : form) (use mac : scope * nat) (n : nat) : option (form * nat) :=
  match f x with
  | Some t => let '(y, n) := close_parts use t n in Some (Clo n (fst mac) (snd mac) Nil y, S n)
  | None => None
  end.
