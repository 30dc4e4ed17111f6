(** Scheme library code on the machine: the text of a library is read by the model of
    Reader.v, expanded, compiled by the model of Generator.v and executed by Machine.v.

    Model of src/kernel/expander.cpp and syntactic_environment::sweep
    (syntactic_environment.cpp:203-330) on forms without macros.  Simplifications: the
    renaming of variables that shadow others (syntactic_closure::alpha) is left out, it
    does not change what a variable of these forms refers to; the aliases made by default_rename
    (syntactic_environment.cpp:362-365) are identifiers of their own, bound to the
    keyword.  Numbers and booleans of the text are immediates; a number is only used
    as the operand of current and install. *)
From Coq Require Import String ZArith List Bool.
From Verif Require Number NumberText TextPort Writer Reader.
From Verif Require Import Machine Generator Evaluate.
Import ListNotations.
Local Open Scope string_scope.
Local Open Scope list_scope.

Definition name := list Z.
Definition text_of (s : string) : name := Writer.codes s.
Definition name_eqb (a b : name) : bool := if list_eq_dec Z.eq_dec a b then true else false.

(** ** Names *)
(** The keywords of core_syntactic_environment that occur, and their aliases *)
Definition core_keywords : list (string * keyword) :=
  [("begin", KBegin); ("call-with-current-continuation!", KCallCC); ("current", KCurrent); ("define", KDefine);
   ("if", KIf); ("install", KInstall); ("lambda", KLambda); ("letrec", KLetrec); ("quote", KQuote); ("set!", KSet)].
(** identifiers 0 and 1: the aliases of lambda and set! *)
Definition alias_lambda : nat := 0.
Definition alias_set : nat := 1.
Fixpoint index_of (n : name) (l : list name) : option nat :=
  match l with
  | [] => None
  | m :: l => if name_eqb m n then Some 0 else match index_of n l with Some i => Some (S i) | None => None end
  end.
Fixpoint symbols_of (d : Writer.datum) : list name :=
  match d with
  | Writer.Sym n => [n]
  | Writer.Pair a b => symbols_of a ++ symbols_of b
  | _ => []
  end.
Fixpoint distinct (l seen : list name) : list name :=
  match l with
  | [] => rev seen
  | n :: l => if existsb (name_eqb n) seen then distinct l seen else distinct l (n :: seen)
  end.

Section Expand.
  (** The symbols, in the order of their identifiers *)
  Variable symbols : list name.
  Definition id_of (n : name) : option nat := index_of n symbols.
  Definition ob {A B} (o : option A) (k : A -> option B) : option B := match o with Some a => k a | None => None end.
  Definition nil_ : form := FAtom VNil.
  Definition fpair (a d : form) : form := FPair 0 a d.
  Fixpoint flist (l : list form) : form := match l with [] => nil_ | a :: l => fpair a (flist l) end.

  (** a datum as a form: nothing is expanded *)
  Fixpoint plain_form (d : Writer.datum) : option form :=
    match d with
    | Writer.Nil => Some nil_
    | Writer.Bool b => Some (FAtom (make_bool b))
    | Writer.Num (Number.Small i) => Some (FAtom (VImm i))
    | Writer.Sym n => ob (id_of n) (fun i => Some (FId i))
    | Writer.Pair a b => ob (plain_form a) (fun a => ob (plain_form b) (fun b => Some (fpair a b)))
    | _ => None
    end.
  (** syntactic_environment.cpp:71-91: the keyword of a form, unless it is bound *)
  Definition keyword_of (bound : list name) (n : name) : option keyword :=
    if existsb (name_eqb n) bound then None
    else match find (fun p => name_eqb (text_of (fst p)) n) core_keywords with Some (_, k) => Some k | None => None end.
  Fixpoint formal_names (d : Writer.datum) : list name :=
    match d with Writer.Sym n => [n] | Writer.Pair (Writer.Sym n) d => n :: formal_names d | _ => [] end.

  (** syntactic_environment::sweep, on definitions: (variable, formals, expressions).
      A definition of a procedure has formals *)
  Fixpoint datum_list (d : Writer.datum) : list Writer.datum :=
    match d with Writer.Pair a d => a :: datum_list d | _ => [] end.
  Fixpoint sweep (bound : list name) (sequence : list Writer.datum) : list (name * option Writer.datum * Writer.datum) * list Writer.datum :=
    match sequence with
    | Writer.Pair (Writer.Sym k) rest :: more =>
      match keyword_of bound k, rest with
      | Some KDefine, Writer.Pair (Writer.Pair (Writer.Sym f) formals) body =>
        let '(ds, s) := sweep bound more in ((f, Some formals, body) :: ds, s)
      | Some KDefine, Writer.Pair (Writer.Sym x) e =>
        let '(ds, s) := sweep bound more in ((x, None, e) :: ds, s)
      | _, _ => ([], sequence)
      end
    | _ => ([], sequence)
    end.

  Fixpoint expand (fuel : nat) (bound : list name) (d : Writer.datum) : option form :=
    match fuel with
    | O => None
    | S fuel =>
      match d with
      | Writer.Pair (Writer.Sym n) rest =>
        match keyword_of bound n with
        | Some k => ob (id_of n) (fun i => ob (expand_syntax fuel k bound rest) (fun r => Some (fpair (FId i) r)))
        | None => expand_list fuel bound d                                   (* call, expander.cpp:45-72 *)
        end
      | Writer.Pair _ _ => expand_list fuel bound d
      | _ => plain_form d
      end
    end
  with expand_list (fuel : nat) (bound : list name) (d : Writer.datum) : option form :=
    match fuel with
    | O => None
    | S fuel =>
      match d with
      | Writer.Pair a d => ob (expand fuel bound a) (fun a => ob (expand_list fuel bound d) (fun d => Some (fpair a d)))
      | _ => expand fuel bound d
      end
    end
  with expand_syntax (fuel : nat) (k : keyword) (bound : list name) (d : Writer.datum) : option form :=
    match fuel with
    | O => None
    | S fuel =>
      match k with
      | KQuote => plain_form d                                               (* expander.cpp:35-38 *)
      | KLambda => match d with Writer.Pair formals body => expand_lambda fuel bound formals body | _ => None end
      | KDefine =>                                                           (* expander.cpp:293-317 *)
        match d with
        | Writer.Pair (Writer.Pair (Writer.Sym f) formals) body =>
          ob (id_of f) (fun f => ob (expand_lambda fuel bound formals body) (fun l =>
            Some (flist [FId f; fpair (FId alias_lambda) l])))
        | Writer.Pair (Writer.Sym x) rest =>
          ob (id_of x) (fun x => ob (expand_list fuel bound rest) (fun r => Some (fpair (FId x) r)))
        | _ => None
        end
      | KLetrec =>                                                           (* expander.cpp:207-226 *)
        match d with
        | Writer.Pair bindings body =>
          let names := map (fun b => match b with Writer.Pair (Writer.Sym n) _ => n | _ => [] end) (datum_list bindings) in
          ob (expand_bindings fuel (names ++ bound) (datum_list bindings)) (fun bs =>
          ob (expand_body fuel (names ++ bound) body) (fun body => Some (fpair bs body)))
        | _ => None
        end
      | KBegin | KIf | KSet | KCallCC | KCurrent | KInstall => expand_list fuel bound d
      end
    end
  with expand_bindings (fuel : nat) (bound : list name) (bs : list Writer.datum) : option form :=
    match fuel with
    | O => None
    | S fuel =>
      match bs with
      | [] => Some nil_
      | Writer.Pair (Writer.Sym n) (Writer.Pair e Writer.Nil) :: bs =>
        ob (id_of n) (fun n => ob (expand fuel bound e) (fun e => ob (expand_bindings fuel bound bs) (fun bs =>
          Some (fpair (flist [FId n; e]) bs))))
      | _ => None
      end
    end
  (** expander.cpp:74-87: the formals and the body *)
  with expand_lambda (fuel : nat) (bound : list name) (formals body : Writer.datum) : option form :=
    match fuel with
    | O => None
    | S fuel =>
      ob (plain_form formals) (fun fs => ob (expand_body fuel (formal_names formals ++ bound) body) (fun b => Some (fpair fs b)))
    end
  (** expander.cpp:89-150: definitions become assignments to the parameters of a lambda *)
  with expand_body (fuel : nat) (bound : list name) (d : Writer.datum) : option form :=
    match fuel with
    | O => None
    | S fuel =>
      match sweep bound (datum_list d) with
      | ([], _) => expand_list fuel bound d
      | (ds, s) =>
        let vars := map (fun d => fst (fst d)) ds in
        let inner := vars ++ bound in
        ob (expand_definitions fuel inner ds) (fun sets =>
        ob (expand_body fuel inner (fold_right Writer.Pair Writer.Nil s)) (fun rest =>
        ob (plain_form (fold_right Writer.Pair Writer.Nil (map Writer.Sym vars))) (fun formals =>
        Some (flist [fpair (fpair (FId alias_lambda) (fpair formals (fold_right fpair rest sets)))
                           (flist (map (fun _ => nil_) vars))]))))
      end
    end
  with expand_definitions (fuel : nat) (bound : list name) (ds : list (name * option Writer.datum * Writer.datum)) : option (list form) :=
    match fuel with
    | O => None
    | S fuel =>
      match ds with
      | [] => Some []
      | (x, formals, e) :: ds =>
        ob (id_of x) (fun x =>
        ob (match formals with
            | Some fs => ob (expand_lambda fuel bound fs e) (fun l => Some (fpair (FId alias_lambda) l))
            | None => match e with Writer.Pair e Writer.Nil => expand fuel bound e | _ => None end
            end) (fun e =>
        ob (expand_definitions fuel bound ds) (fun more => Some (flist [FId alias_set; FId x; e] :: more))))
      end
    end.
End Expand.

(** ** The procedures of boot.cpp that the libraries use, in the numbering of Evaluate.v
    and beyond.  Where the C++ would read something that is not a pair, the model
    throws *)
Definition procedures : list string :=
  ["cons"; "car"; "cdr"; "set-car!"; "set-cdr!"; "eq?"; "pair?"; "null?"; "list"; "procedure?";
   "caar"; "cdar"; "cadr"; "cddr"; "not"; "assq"; "append"; "reverse"; "memq"; "throw"; "emergency-exit"; "kernel-exception-handler-set!"].
(** list.cpp, on proper lists; [None] for anything else *)
Fixpoint take_list (fuel : nat) (h : heap) (x : val) : option (list val) :=
  match x with
  | VNil => Some []
  | _ => match fuel with
         | O => None
         | S fuel => ob (car h x) (fun a => ob (cdr h x) (fun d => ob (take_list fuel h d) (fun l => Some (a :: l))))
         end
  end.
Fixpoint make_list (h : heap) (l : list val) (last : val) : val * heap :=
  match l with
  | [] => (last, h)
  | a :: l => let '(r, h) := make_list h l last in alloc h (OPair a r)
  end.
Fixpoint assq_in (h : heap) (x : val) (l : list val) : option val :=
  match l with
  | [] => Some f_
  | p :: l => match car h p with
              | Some k => if val_eqb k x then Some p else assq_in h x l
              | None => None
              end
  end.
Fixpoint memq_in (h : heap) (fuel : nat) (x l : val) : option val :=
  match fuel with
  | O => None
  | S fuel => match l with
              | VNil => Some f_
              | _ => ob (car h l) (fun a => if val_eqb a x then Some l else ob (cdr h l) (memq_in h fuel x))
              end
  end.
Definition library_primitive (n : nat) (h : heap) (xs : val) : presult :=
  let arg1 k := match head h xs 0 with Some x => k x | None => PThrow h end in
  let arg2 k := match head h xs 0, head h xs 1 with Some x, Some y => k x y | _, _ => PThrow h end in
  let give o := match o with Some v => PVal h v | None => PThrow h end in
  match n with
  | 10 => arg1 (fun x => give (ob (car h x) (car h)))                                                  (* caar, boot.cpp:277 *)
  | 11 => arg1 (fun x => give (ob (car h x) (cdr h)))                                                  (* cdar, 279 *)
  | 12 => arg1 (fun x => give (ob (cdr h x) (car h)))                                                  (* cadr, 278 *)
  | 13 => arg1 (fun x => give (ob (cdr h x) (cdr h)))                                                  (* cddr, 280 *)
  | 14 => arg1 (fun x => PVal h (make_bool (val_eqb x f_)))                                            (* not *)
  | 15 => arg2 (fun x l => give (ob (take_list (length h) h l) (assq_in h x)))                         (* assq *)
  | 16 => arg2 (fun x y => match take_list (length h) h x with
                           | Some l => let '(r, h) := make_list h l y in PVal h r
                           | None => PThrow h
                           end)                                                                        (* append, two arguments *)
  | 17 => arg1 (fun x => match take_list (length h) h x with
                         | Some l => let '(r, h) := make_list h (rev l) VNil in PVal h r
                         | None => PThrow h
                         end)                                                                          (* reverse *)
  | 18 => arg2 (fun x l => give (memq_in h (S (length h)) x l))                                        (* memq *)
  | 19 => PThrow h                                                                                     (* throw *)
  | 20 => PThrow h                                                                                     (* emergency-exit: it does not return *)
  | 21 => arg1 (fun x => PVal h x)                                                                     (* kernel-exception-handler-set! *)
  | _ => primitive n h xs
  end.

(** ** Loading *)
Definition read_data (s : string) : list Writer.datum :=
  fold_right (fun r ds => match r with Reader.Datum Writer.End => ds | Reader.Datum d => d :: ds | _ => ds end) []
    (Reader.read_all (fun _ _ => None) (fun _ => []) 100 (String.length s) (TextPort.stream_of (text_of s))).
Definition library_symbols (ds : list Writer.datum) : list name :=
  distinct (text_of "%lambda" :: text_of "%set!" :: map (fun k => text_of (fst k)) core_keywords ++ map text_of procedures
            ++ flat_map symbols_of ds) [].
(** The identifiers of the keywords, the aliases and the procedures, bound to cells *)
Definition first_scope (symbols : list name) : list (nat * nat) :=
  [(alias_lambda, 6); (alias_set, 9)] ++ map (fun i => (2 + i, i)) (seq 0 (length core_keywords))
  ++ map (fun i => (2 + length core_keywords + i, length core_keywords + i)) (seq 0 (length procedures)).
(** The objects of the symbols, then those of the procedures *)
Definition first_heap (symbols : list name) : heap :=
  map OOther (seq 0 (length symbols)) ++ map OProcedure (seq 0 (length procedures)).
Definition first_cells (symbols : list name) : list gval :=
  map (fun k => GSyntax (snd k)) core_keywords ++ map (fun i => GVal (VPtr (length symbols + i))) (seq 0 (length procedures)).

Section Load.
  Variable unspecified undefined : val.
  Variable proc : nat -> heap -> val -> presult.
  (** The definitions of a library are evaluated one after the other (library.cpp:44-52) *)
  Fixpoint load_all (fuel : nat) (G : genv) (h : heap) (a : list val) (fs : list form) : option (genv * heap * list val) :=
    match fs with
    | [] => Some (G, h, a)
    | f :: fs => match evaluate unspecified undefined proc fuel G h a f with
                 | Some (_, G, h, a) => load_all fuel G h a fs
                 | None => None
                 end
    end.
  Definition load_text (s : string) (a : list val) : option (list name * genv * heap * list val) :=
    let ds := read_data s in
    let symbols := library_symbols ds in
    ob (fold_right (fun d r => ob (expand symbols 1000 [] d) (fun f => ob r (fun fs => Some (f :: fs)))) (Some []) ds) (fun fs =>
    match load_all (100 * 100) (GEnv (first_scope symbols) (first_cells symbols)) (first_heap symbols) a fs with
    | Some (G, h, a) => Some (symbols, G, h, a)
    | None => None
    end).
End Load.

(** library/meevax.ss:52-90: the text of (meevax continuation) without exit *)
Definition continuation_text : string := "
         (define (current-dynamic-extents)
           (current 0))

         (define (install-dynamic-extents! extents)
           (install 0 extents))

         (define (dynamic-wind before thunk after) ; https://www.cs.hmc.edu/~fleck/envision/scheme48/meeting/node7.html
           (before)
           (install-dynamic-extents! (cons (cons before after)
                                           (current-dynamic-extents)))
           ((lambda (result) ; TODO let-values
              (install-dynamic-extents! (cdr (current-dynamic-extents)))
              (after)
              result) ; TODO (apply values result)
            (thunk)))

         (define (call-with-current-continuation procedure)
           (define (windup! from to)
             (install-dynamic-extents! from)
             (if (eq? from to)
                 #t
                 (if (null? from)
                     (begin (windup! from (cdr to))
                            ((caar to)))
                     (if (null? to)
                         (begin ((cdar from))
                                (windup! (cdr from) to))
                         (begin ((cdar from))
                                (windup! (cdr from)
                                         (cdr to))
                                ((caar to))))))
             (install-dynamic-extents! to))
           ((lambda (dynamic-extents)
              (call-with-current-continuation!
                (lambda (continue)
                  (procedure (lambda (x)
                               (windup! (current-dynamic-extents) dynamic-extents)
                               (continue x))))))
            (current-dynamic-extents)))
".
(** library/meevax.ss:109-117 and 127-142: apply and map *)
Definition map_text : string := "
         (define (apply f x . xs)
           (if (null? xs)
               (f . x)
               ((lambda (xs)
                  ((lambda (x)
                     (f . x))
                   (append (reverse (cdr xs))
                           (car xs))))
                (reverse (cons x xs)))))

         (define (map f . xs)
           (define (map f x a)
             (if (null? x)
                 (reverse a)
                 (map f
                      (cdr x)
                      (cons (f (car x)) a))))
           (define (map* f xs a)
             (if (memq '() xs)
                 (reverse a)
                 (map* f
                       (map cdr xs '())
                       (cons (apply f (map car xs '())) a))))
           (if (null? (cdr xs))
               (map f (car xs) '())
               (map* f xs '())))
".
(** library/srfi-39.ss:34-72 without the macro parameterize, which makes
    (dynamic-bind (list <parameter> ...) (list <value> ...) (lambda () <body>)) *)
Definition parameter_text : string := "
         (define (current-dynamic-bindings)
           (current 1))

         (define (install-dynamic-bindings! bindings)
           (install 1 bindings))

         (define (make-parameter init . convert)
           ((lambda (convert)
              ((lambda (default)
                 (letrec ((parameter
                            (lambda value
                              ((lambda (cell)
                                 (if (null? value)
                                     (cdr cell)
                                     (if (null? (cdr value))
                                         (set-cdr! cell (convert (car value)))
                                         (convert (car value)))))
                               ((lambda (current-dynamic-binding)
                                  (if current-dynamic-binding
                                      current-dynamic-binding
                                      default))
                                (assq parameter (current-dynamic-bindings)))))))
                   (set-car! default parameter)
                   parameter))
               (cons #f (convert init))))
            (if (null? convert)
                (lambda (x) x)
                (car convert))))

         (define (dynamic-bind parameters values body)
           ((lambda (outer inner)
              (dynamic-wind (lambda () (install-dynamic-bindings! (append inner outer)))
                            body
                            (lambda () (install-dynamic-bindings! outer))))
            (current-dynamic-bindings)
            (map (lambda (parameter value)
                   (cons parameter (parameter value 'convert)))
                 parameters
                 values)))
".
(** library/srfi-34.ss:30-69, with let written as a call of a lambda expression *)
Definition exception_text : string := "
         (define (current-exception-handlers)
           (current 2))

         (define (install-exception-handlers! handlers)
           (install 2 handlers))

         (define (with-exception-handlers new-handlers thunk)
           ((lambda (old-handlers)
             (dynamic-wind
               (lambda () (install-exception-handlers! new-handlers)) ; install
               thunk
               (lambda () (install-exception-handlers! old-handlers)))) ; uninstall
            (current-exception-handlers)))

         (define (with-exception-handler handler thunk)
           (with-exception-handlers (cons handler (current-exception-handlers)) thunk))

         (define (raise x)
           (if (pair? (current-exception-handlers))
               ((lambda (inner outer)
                 (with-exception-handlers outer
                   (lambda ()
                     (if (procedure? inner)
                         (inner x)
                         (throw x))
                     (throw x))))
                (car (current-exception-handlers))
                (cdr (current-exception-handlers)))
               (throw x)))

         (define (raise-continuable x)
           (if (pair? (current-exception-handlers))
               ((lambda (inner outer)
                 (with-exception-handlers outer
                   (lambda ()
                     (if (procedure? inner)
                         (inner x)
                         (throw x)))))
                (car (current-exception-handlers))
                (cdr (current-exception-handlers)))
               (throw x)))

         (kernel-exception-handler-set! raise)
".
(** library/srfi-45.ss:11-36; the macros make (promise #f (lambda () <expression>)) for
    lazy and (promise #f (lambda () (promise #t <expression>))) for delay *)
Definition promise_text : string := "
         (define <promise> (list 'promise))

         (define (promise done? value)
           (cons <promise> (cons done? value)))

         (define (promise? x)
           (if (pair? x)
               (eq? <promise> (car x))
               #f))

         (define promise-done? cadr)

         (define promise-value cddr)

         (define (promise-update! new old)
           (set-car! (cdr old) (promise-done? new))
           (set-cdr! (cdr old) (promise-value new))
           (set-car! new (cdr old)))

         (define (force promise)
           (if (promise-done? promise)
               (promise-value promise)
               ((lambda (promise*)
                  (if (not (promise-done? promise))
                      (promise-update! promise* promise))
                  (force promise))
                ((promise-value promise)))))
".

(** library/meevax.ss:92-100: the rest of (meevax continuation) *)
Definition exit_text : string := "
         (define (exit . xs)
           (letrec ((for-each (lambda (f x)
                                (if (pair? x)
                                    (begin (f (car x))
                                           (for-each f (cdr x)))))))
             (for-each (lambda (before/after)
                         ((cdr before/after)))
                       (current-dynamic-extents))
             (emergency-exit . xs)))
".
(** library/r4rs.ss:294-302 *)
Definition for_each_text : string := "
         (define (for-each f x . xs) ; Chibi-Scheme
           (if (null? xs)
               (letrec ((for-each (lambda (f x)
                                    (if (pair? x)
                                        (begin (f (car x))
                                               (for-each f (cdr x)))))))
                 (for-each f x))
               (begin (apply map f x xs)
                      (if #f #f))))
".
(** library/r5rs.ss:84-99; the calls of and
    and the let are written as what the macros make of them *)
Definition values_text : string := "
         (define <values> (list 'values)) ; Chibi-Scheme

         (define (values . xs) ; Chibi-Scheme
           (if (if (pair? xs)
                   (null? (cdr xs))
                   #f)
               (car xs)
               (cons <values> xs)))

         (define (call-with-values produce consume) ; Chibi-Scheme
           (define (values? x)
             (if (pair? x)
                 (eq? <values> (car x))
                 #f))
           ((lambda (vs)
              (if (values? vs)
                  (apply consume (cdr vs))
                  (consume vs)))
            (produce)))
".

(** The objects unspecified and undefined *)
Definition un : val := VImm 90.
Definition ud : val := VImm 91.
(** All of them in one environment.  In the C++ every library has its own, with the
    cells of what it imports; the names that are defined here differ.  The keywords used
    are imported by the libraries, but for one: (meevax continuation) does not import
    letrec, so that this exit is not that of the C++; ExitLibrary.v has that one. *)
Definition library_text : string :=
  String.append continuation_text (String.append map_text (String.append parameter_text (String.append exception_text (String.append promise_text
    (String.append exit_text (String.append for_each_text values_text)))))).
Definition library_loaded := load_text un ud library_primitive library_text [VNil; VNil; VNil; VNil].
Definition library_symbols_of : list name := Eval vm_compute in match library_loaded with Some (symbols, _, _, _) => symbols | None => [] end.
Definition library_heap : heap := Eval vm_compute in match library_loaded with Some (_, _, h, _) => h | None => [] end.
Definition library_env : genv := Eval vm_compute in match library_loaded with Some (_, G, _, _) => G | None => GEnv [] [] end.
Definition library_registers : list val := Eval vm_compute in match library_loaded with Some (_, _, _, a) => a | None => [] end.
Lemma library_is_loaded : library_loaded = Some (library_symbols_of, library_env, library_heap, library_registers).
Proof. vm_compute. reflexivity. Qed.
(** Where a global variable is found *)
Definition cell_of (s : string) : nat :=
  match index_of (text_of s) library_symbols_of with
  | Some i => match assq i (scope library_env) with Some n => n | None => 0 end
  | None => 0
  end.
Definition global (s : string) : val :=
  match nth_error (cells library_env) (cell_of s) with Some (GVal v) => v | _ => VNil end.
