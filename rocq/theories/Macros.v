(** The macros of the library that are defined by syntax-rules: let-values and let*-values
    (library/srfi-11.ss:6-31), receive (library/srfi-8.ss:26-30), rec (library/srfi-31.ss:26-31),
    define-values (library/r7rs.ss:127-158), define-record-type (library/srfi-9.ss:121-142) and
    case-lambda (library/srfi-16.ss:5-25).  The text of the rules is read by the model of Reader.v,
    compiled and run by the model of SyntaxRules.v.

    Identifiers are numbers.  Symbols are even; [alias u x] is what rename makes of the identifier x in the
    macro use number u, an identifier of its own (library/meevax.ss:30-40: a new syntactic closure for
    every use; that it refers to x where the macro is defined is C58 and C59).  A string of a rule is
    [Other] of its characters. *)
From Coq Require Import String ZArith List Bool Arith Cantor.
From Verif Require TextPort Writer Reader.
From Verif Require Import SyntaxRules.
Import ListNotations.
Local Open Scope nat_scope.

(** ** Identifiers *)
Definition alias (u x : nat) : nat := 2 * to_nat (u, x) + 1.
Definition ren (u : nat) (d : datum) : datum := match d with Id x => Id (alias u x) | _ => d end.
(** The symbols of the rules, and of the forms that the expansions are made of *)
Definition names : list string := [
  "..."; "_"; ":::"; "let-values"; "let*-values"; "let"; "lambda"; "begin"; "call-with-values"; "receive"; "rec"; "letrec"; "define";
  "define-values"; "define-record-field"; "define-record-type"; "case-lambda"; "letrec-syntax"; "syntax-rules"; "quote"; "if"; "set!";
  "binding"; "body0"; "body1"; "tmps"; "body"; "b0"; "e0"; "args"; "bindings"; "a"; "b"; "arg"; "tmp"; "x"; "binding0"; "binding1";
  "formals"; "expression"; "name"; "variables"; "identifier"; "id-0"; "id-1"; "id-n"; "dummy"; "xs"; "list"; "cadr"; "cddr"; "car"; "cdr"; "set-cdr!";
  "type"; "field-tag"; "accessor"; "modifier"; "record-accessor"; "record-modifier"; "constructor"; "constructor-tag"; "predicate"; "more";
  "make-record-type"; "record-constructor"; "record-predicate";
  "params"; "len"; "length"; "cl"; "error"; "p"; "rest"; "tail"; "="; ">="; "apply";
  "guard"; "guard-aux"; "reraise"; "else"; "=>"; "result"; "result1"; "result2"; "test"; "temp"; "or"; "clause"; "clause1"; "clause2"; "var"; "e1"; "e2";
  "call-with-current-continuation"; "guard-k"; "handler-k"; "with-exception-handler"; "condition"; "raise-continuable"; "values"]%string.
Fixpoint index (s : list Z) (l : list string) : nat :=
  match l with [] => 0 | n :: l => if list_eq_dec Z.eq_dec (Writer.codes n) s then 0 else S (index s l) end.
Definition sym (s : string) : nat := 2 * index (Writer.codes s) names.
(** The strings of the rules *)
Definition strings : list string := ["bind"; "mktmp"; "no matching clause"]%string.
(** ** Reading the text *)
Fixpoint from (d : Writer.datum) : datum :=
  match d with
  | Writer.Nil => Nil
  | Writer.Bool b => Bool b
  | Writer.Str s => Other (index s strings)
  | Writer.Sym s => Id (2 * index s names)
  | Writer.Pair a b => Pair (from a) (from b)
  | _ => Nil
  end.
(** The rules, a list of (pattern template) *)
Fixpoint rules_in (d : datum) : list (datum * datum) :=
  match d with Pair (Pair p (Pair t _)) d => (p, t) :: rules_in d | _ => [] end.
Definition rules_of (s : string) : list (datum * datum) :=
  match Reader.read_all (fun _ _ => None) (fun _ => []) 100 (String.length s) (TextPort.stream_of (Writer.codes s)) with
  | Reader.Datum d :: _ => rules_in (from d)
  | _ => []
  end.

(** srfi-11.ss:8-23 *)
Definition let_values_text : string := "
            (((let-values (binding ...) body0 body1 ...)
              (let-values ""bind"" (binding ...) () (begin body0 body1 ...)))
             ((let-values ""bind"" () tmps body)
              (let tmps body))
             ((let-values ""bind"" ((b0 e0) binding ...) tmps body)
              (let-values ""mktmp"" b0 e0 () (binding ...) tmps body))
             ((let-values ""mktmp"" () e0 args bindings tmps body)
              (call-with-values (lambda () e0)
                                (lambda args
                                  (let-values ""bind"" bindings tmps body))))
             ((let-values ""mktmp"" (a . b) e0 (arg ...) bindings (tmp ...) body)
              (let-values ""mktmp"" b e0 (arg ... x) bindings (tmp ... (a x)) body))
             ((let-values ""mktmp"" a e0 (arg ...) bindings (tmp ...) body)
              (call-with-values (lambda () e0)
                                (lambda (arg ... . x)
                                  (let-values ""bind"" bindings (tmp ... (a x)) body)))))".
(** srfi-11.ss:27-31 *)
Definition let_star_values_text : string := "
            (((let*-values () body0 body1 ...)
              (let () body0 body1 ...))
             ((let*-values (binding0 binding1 ...) body0 body1 ...)
              (let-values (binding0)
                (let*-values (binding1 ...) body0 body1 ...))))".
(** srfi-8.ss:28-30 *)
Definition receive_text : string := "
            (((receive formals expression body ...)
              (call-with-values (lambda () expression)
                                (lambda formals body ...))))".
(** srfi-31.ss:28-31 *)
Definition rec_text : string := "
            (((rec (name . variables) . body)
              (letrec ((name (lambda variables . body))) name))
             ((rec name expression)
              (letrec ((name expression)) name)))".
(** r7rs.ss:129-158 *)
Definition define_values_text : string := "
            (((define-values () expression)
              (define dummy
                (call-with-values (lambda () expression)
                                  (lambda xs #f))))
             ((define-values (identifier) expression)
              (define identifier expression))
             ((define-values (id-0 id-1 ... id-n) expression)
              (begin (define id-0
                       (call-with-values (lambda () expression) list))
                     (define id-1
                       (let ((x (cadr id-0)))
                         (set-cdr! id-0 (cddr id-0))
                         x)) ...
                     (define id-n
                       (let ((x (cadr id-0)))
                         (set! id-0 (car id-0))
                         x))))
             ((define-values (id-0 id-1 ... . id-n) expression)
              (begin (define id-0
                       (call-with-values (lambda () expression) list))
                     (define id-1
                       (let ((x (cadr id-0)))
                         (set-cdr! id-0 (cddr id-0))
                         x)) ...
                     (define id-n
                       (let ((x (cdr id-0)))
                         (set! id-0 (car id-0))
                         x))))
             ((define-values identifier expression)
              (define identifier
                (call-with-values (lambda () expression) list))))".
(** srfi-9.ss:123-127 *)
Definition define_record_field_text : string := "
            (((define-record-field type field-tag accessor)
              (define accessor (record-accessor type 'field-tag)))
             ((define-record-field type field-tag accessor modifier)
              (begin (define accessor (record-accessor type 'field-tag))
                     (define modifier (record-modifier type 'field-tag)))))".
(** srfi-9.ss:131-142 *)
Definition define_record_type_text : string := "
            (((define-record-type type
                                  (constructor constructor-tag ...)
                                  predicate
                                  (field-tag accessor . more) ...)
              (begin (define type
                       (make-record-type 'type '(field-tag ...)))
                     (define constructor
                       (record-constructor type '(constructor-tag ...)))
                     (define predicate
                       (record-predicate type))
                     (define-record-field type field-tag accessor . more)
                     ...)))".
(** srfi-16.ss:7-25 *)
Definition case_lambda_text : string := "
            (((case-lambda (params body0 ...) ...)
              (lambda args
                (let ((len (length args)))
                  (letrec-syntax
                    ((cl (syntax-rules ::: ()
                           ((cl)
                            (error ""no matching clause""))
                           ((cl ((p :::) . body) . rest)
                            (if (= len (length '(p :::)))
                                (apply (lambda (p :::) . body) args)
                                (cl . rest)))
                           ((cl ((p ::: . tail) . body) . rest)
                            (if (>= len (length '(p :::)))
                                (apply (lambda (p ::: . tail) . body) args)
                                (cl . rest))))))
                    (cl (params body0 ...) ...))))))".

(** ** Expansion *)
(** compare where the macros are defined: symbols *)
Definition cmp (x y : datum) : bool := match x, y with Id a, Id b => a =? b | _, _ => false end.
(** The procedure that (syntax-rules () . rules) makes, srfi-149.ss:280-300; none of these macros has literals *)
Definition procedure_of (s : string) : option expr :=
  match transformer cmp (Id (sym "_")) (Id (sym "...")) Nil 300 (rules_of s) with Ok e => Some e | _ => None end.
(** One use of the macro: [compare] is not called, since there are no literals *)
Definition expands (s : string) (u : nat) (form d : datum) : Prop :=
  exists e n, procedure_of s = Some e /\ forall m, n <= m -> expand (ren u) (fun _ _ => false) (fun _ => Nil) m e form = Ok d.
