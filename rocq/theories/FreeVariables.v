(** The global variables and keywords that the definitions of the libraries of
    StandardLibraries.v refer to.

    The table [uses] lists for every definition in a begin of these libraries the names
    that occur in it, outside of quoted data, and that it does not bind itself anywhere.
    Simplifications: a name that a definition binds in one place and uses freely in another
    is not listed; literals of macros (else, =>, unquote) are not listed; the name defined
    is not listed.  Commands that define nothing have the name "". *)
From Coq Require Import String List Bool.
From Verif Require Import StandardLibraries.
Import ListNotations.
Local Open Scope string_scope.

Record use := Uses { in_library : string; in_definition : string; used : list string }.
(** Per library, the lines of its declaration in library/ *)
Definition uses : list use :=
  [
   (* meevax.ss:1-41 *)
   Uses "meevax macro-transformer" "sc-macro-transformer" (words "define lambda make-syntactic-closure");
   Uses "meevax macro-transformer" "rsc-macro-transformer" (words "define lambda make-syntactic-closure");
   Uses "meevax macro-transformer" "identifier=?" (words "define eqv? if make-syntactic-closure syntactic-closure?");
   Uses "meevax macro-transformer" "er-macro-transformer" (words "assq begin cdar cdr cons define identifier=? if lambda make-syntactic-closure set!");
   (* meevax.ss:43-100 *)
   Uses "meevax continuation" "current-dynamic-extents" (words "current define");
   Uses "meevax continuation" "install-dynamic-extents!" (words "define install");
   Uses "meevax continuation" "dynamic-wind" (words "cdr cons current-dynamic-extents define install-dynamic-extents! lambda");
   Uses "meevax continuation" "call-with-current-continuation" (words "begin caar call-with-current-continuation! cdar cdr current-dynamic-extents define eq? if install-dynamic-extents! lambda null?");
   Uses "meevax continuation" "exit" (words "begin car cdr current-dynamic-extents define emergency-exit if lambda letrec pair?");
   (* meevax.ss:102-117 *)
   Uses "meevax apply" "apply" (words "append car cdr cons define if lambda null? reverse");
   (* meevax.ss:119-142 *)
   Uses "meevax map" "map" (words "apply car cdr cons define if memq null? reverse");
   (* r4rs.ss:37-386 *)
   Uses "scheme r4rs" "cond" (words "caddr cadr car cddr cdr cons define-syntax er-macro-transformer if lambda list null?");
   Uses "scheme r4rs" "and" (words "cadr cddr cdr cond cons define-syntax er-macro-transformer lambda list null?");
   Uses "scheme r4rs" "or" (words "cadr cddr cdr cond cons define-syntax er-macro-transformer lambda list null?");
   Uses "scheme r4rs" "quasiquote" (words "+ - <= and caar cadar cadr car cdr cond define define-syntax er-macro-transformer identifier? if lambda list null? or pair?
     vector->list vector?");
   Uses "scheme r4rs" "let" (words "caddr cadr car cdddr cddr define-syntax er-macro-transformer identifier? if lambda map");
   Uses "scheme r4rs" "let*" (words "caadr cadr cdadr cddr define-syntax er-macro-transformer if lambda null?");
   Uses "scheme r4rs" "do" (words "caaddr caddr cadr car cdaddr cdddr cddr define-syntax er-macro-transformer if lambda let list map null? pair?");
   Uses "scheme r4rs" "case" (words "and caaar caar cadr car cdaar cdar cddr cdr cond define define-syntax er-macro-transformer if lambda null? pair?");
   Uses "scheme r4rs" "member" (words "and car cdr define equal? if let pair?");
   Uses "scheme r4rs" "assoc" (words "caar car cdr define equal? if let null? pair?");
   Uses "scheme r4rs" "rationalize" (words "+ - / < = and cond define exact? floor if let negative? not positive?");
   Uses "scheme r4rs" "for-each" (words "apply begin car cdr define if lambda letrec map null? pair?");
   Uses "scheme r4rs" "call-with-input-file" (words "close-input-port define let open-input-file");
   Uses "scheme r4rs" "call-with-output-file" (words "close-output-port define let open-output-file");
   Uses "scheme r4rs" "current-input-port" (words "define make-parameter standard-input-port");
   Uses "scheme r4rs" "current-output-port" (words "define make-parameter standard-output-port");
   Uses "scheme r4rs" "with-input-from-file" (words "close-input-port current-input-port define let open-input-file parameterize");
   Uses "scheme r4rs" "with-output-to-file" (words "close-output-port current-output-port define let open-output-file parameterize");
   Uses "scheme r4rs" "close-input-port" (words "close define");
   Uses "scheme r4rs" "close-output-port" (words "close define");
   Uses "scheme r4rs" "read" (words "%read car current-input-port define if pair?");
   Uses "scheme r4rs" "read-char" (words "%get-char car current-input-port define if pair?");
   Uses "scheme r4rs" "peek-char" (words "%peek-char car current-input-port define if pair?");
   Uses "scheme r4rs" "char-ready?" (words "%get-char-ready? car current-input-port define if pair?");
   Uses "scheme r4rs" "write" (words "%write car current-output-port define if pair?");
   Uses "scheme r4rs" "write-char" (words "%put-char car current-output-port define if pair?");
   Uses "scheme r4rs" "display" (words "%put-string apply car char? cond current-output-port define if pair? string? write write-char");
   Uses "scheme r4rs" "newline" (words "apply define write-char");
   Uses "scheme r4rs" "load" (words "%interaction-environment %load car define if pair?");
   (* r5rs.ss:1-108 *)
   Uses "scheme r5rs" "<values>" (words "define list");
   Uses "scheme r5rs" "values" (words "<values> and car cdr cons define if null? pair?");
   Uses "scheme r5rs" "call-with-values" (words "<values> and apply car cdr define eq? if let pair?");
   Uses "scheme r5rs" "scheme-report-environment" (words "define environment number->string string->symbol string-append");
   Uses "scheme r5rs" "null-environment" (words "define environment number->string string->symbol string-append");
   (* r7rs.ss:1-348 *)
   Uses "scheme base" "include-ci" (words "define include-case-insensitive");
   Uses "scheme base" "when" (words "cadr cddr define-syntax er-macro-transformer lambda");
   Uses "scheme base" "unless" (words "cadr cddr define-syntax er-macro-transformer lambda");
   Uses "scheme base" "letrec*" (words "cadr cddr cons define-syntax er-macro-transformer lambda map");
   Uses "scheme base" "syntax-error" (words "apply cdr define-syntax er-macro-transformer error lambda");
   Uses "scheme base" "define-values" (words "begin cadr call-with-values car cddr cdr define define-syntax lambda let list set! set-cdr!");
   Uses "scheme base" "square" (words "* define");
   Uses "scheme base" "exact-integer-sqrt" (words "car cdr define exact-integer-square-root let values");
   Uses "scheme base" "inexact" (words "define exact->inexact");
   Uses "scheme base" "exact" (words "define inexact->exact");
   Uses "scheme base" "boolean=?" (words "define eqv?");
   Uses "scheme base" "list-set!" (words "define list-tail set-car!");
   Uses "scheme base" "symbol=?" (words "define eqv?");
   Uses "scheme base" "bytevector?" (words "define u8vector?");
   Uses "scheme base" "make-bytevector" (words "define make-u8vector");
   Uses "scheme base" "bytevector" (words "define u8vector");
   Uses "scheme base" "bytevector-length" (words "define u8vector-length");
   Uses "scheme base" "bytevector-u8-ref" (words "define u8vector-ref");
   Uses "scheme base" "bytevector-u8-set!" (words "define u8vector-set!");
   Uses "scheme base" "bytevector-copy" (words "define u8vector-copy");
   Uses "scheme base" "bytevector-copy!" (words "define u8vector-copy!");
   Uses "scheme base" "bytevector-append" (words "define u8vector-append");
   Uses "scheme base" "utf8->string" (words "define u8vector->string");
   Uses "scheme base" "string->utf8" (words "define string->u8vector");
   Uses "scheme base" "string-map" (words "apply cons define if list->string map null? string->list");
   Uses "scheme base" "vector-map" (words "apply cons define if list->vector map null? vector->list");
   Uses "scheme base" "string-for-each" (words "apply cons define for-each if map null? string->list");
   Uses "scheme base" "vector-for-each" (words "apply cons define for-each if map null? vector->list");
   Uses "scheme base" "call/cc" (words "call-with-current-continuation define");
   Uses "scheme base" "error-object-message" (words "car define");
   Uses "scheme base" "error-object-irritants" (words "cdr define");
   Uses "scheme base" "call-with-port" (words "apply close-port define let-values values");
   Uses "scheme base" "input-port-open?" (words "define open?");
   Uses "scheme base" "output-port-open?" (words "define open?");
   Uses "scheme base" "current-error-port" (words "define make-parameter standard-error-port");
   Uses "scheme base" "close-port" (words "close-input-port close-output-port cond define if input-port? output-port?");
   Uses "scheme base" "open-input-bytevector" (words "define open-input-u8vector");
   Uses "scheme base" "open-output-bytevector" (words "define open-output-u8vector");
   Uses "scheme base" "get-output-bytevector" (words "define get-output-u8vector");
   Uses "scheme base" "read-char" (words "%get-char car current-input-port define if pair?");
   Uses "scheme base" "peek-char" (words "%peek-char car current-input-port define if pair?");
   Uses "scheme base" "read-line" (words "%get-line car current-input-port define if pair?");
   Uses "scheme base" "char-ready?" (words "%get-char-ready? car current-input-port define if pair?");
   Uses "scheme base" "read-string" (words "%get-string car current-input-port define if pair?");
   Uses "scheme base" "read-u8" (words "%get-u8 car current-input-port define if pair?");
   Uses "scheme base" "peek-u8" (words "%peek-u8 car current-input-port define if pair?");
   Uses "scheme base" "u8-ready?" (words "%get-u8-ready? car current-input-port define if pair?");
   Uses "scheme base" "read-bytevector" (words "%get-u8vector car current-input-port define if pair?");
   Uses "scheme base" "read-bytevector!" (words "- and bytevector-copy! bytevector-length caddr cadr car cddr cdr current-input-port define eof-object eof-object? if let* pair?
     read-bytevector");
   Uses "scheme base" "write-char" (words "%put-char car current-output-port define if pair?");
   Uses "scheme base" "write-string" (words "%put-string < apply car cdr current-output-port define if length pair? string-copy");
   Uses "scheme base" "write-u8" (words "%put-u8 car current-output-port define if pair?");
   Uses "scheme base" "write-bytevector" (words "%put-u8vector < apply bytevector-copy car cdr current-output-port define if length pair?");
   Uses "scheme base" "newline" (words "apply define write-char");
   Uses "scheme base" "flush-output-port" (words "car current-output-port define flush if pair?");
   (* r7rs.ss:370-390 *)
   Uses "scheme char" "char-foldcase" (words "char-downcase define");
   Uses "scheme char" "string-upcase" (words "char-upcase define string-map");
   Uses "scheme char" "string-downcase" (words "char-downcase define string-map");
   Uses "scheme char" "string-foldcase" (words "char-foldcase define string-map");
   (* r7rs.ss:513-520 *)
   Uses "scheme read" "read" (words "%read car current-input-port define if pair?");
   (* r7rs.ss:526-532 *)
   Uses "scheme time" "current-second" (words "/ current-jiffy define inexact jiffies-per-second");
   (* r7rs.ss:534-561 *)
   Uses "scheme write" "write" (words "%write car current-output-port define if pair?");
   Uses "scheme write" "write-shared" (words "car current-output-port define if pair? write-with-shared-structure");
   Uses "scheme write" "write-simple" (words "%write-simple car current-output-port define if pair?");
   Uses "scheme write" "display" (words "apply char? cond define string? write write-char write-string");
   (* srfi-11.ss:1-31 *)
   Uses "srfi 11" "let-values" (words "begin call-with-values define-syntax lambda let");
   Uses "srfi 11" "let*-values" (words "define-syntax let let-values");
   (* srfi-141.ss:1-94 *)
   Uses "srfi 141" "floor-quotient" (words "/ define floor");
   Uses "srfi 141" "floor-remainder" (words "define modulo");
   Uses "srfi 141" "floor/" (words "define floor-quotient floor-remainder values");
   Uses "srfi 141" "ceiling-quotient" (words "/ and ceiling define exact? if inexact->exact let");
   Uses "srfi 141" "ceiling-remainder" (words "* - ceiling-quotient define");
   Uses "srfi 141" "ceiling/" (words "ceiling-quotient ceiling-remainder define values");
   Uses "srfi 141" "truncate-quotient" (words "define quotient");
   Uses "srfi 141" "truncate-remainder" (words "define remainder");
   Uses "srfi 141" "truncate/" (words "define truncate-quotient truncate-remainder values");
   Uses "srfi 141" "round-quotient" (words "/ and define exact? if inexact->exact let round");
   Uses "srfi 141" "round-remainder" (words "* - define round-quotient");
   Uses "srfi 141" "round/" (words "define round-quotient round-remainder values");
   Uses "srfi 141" "euclidean-quotient" (words "< ceiling-quotient define floor-quotient if");
   Uses "srfi 141" "euclidean-remainder" (words "* - define euclidean-quotient");
   Uses "srfi 141" "euclidean/" (words "define euclidean-quotient euclidean-remainder values");
   Uses "srfi 141" "balanced-remainder" (words "+ - / < <= abs cond define euclidean-remainder let");
   Uses "srfi 141" "balanced-quotient" (words "- balanced-remainder define quotient");
   Uses "srfi 141" "balanced/" (words "balanced-quotient balanced-remainder define values");
   (* srfi-149.ss:26-300 *)
   Uses "srfi 149" "%number->string" (words "define number->string");
   Uses "srfi 149" "length*" (words "+ and cddr cdr define eq? if let not pair?");
   Uses "srfi 149" "cons-source" (words "cons define");
   Uses "srfi 149" "syntax-quote" (words "define quote-syntax");
   Uses "srfi 149" "strip-syntactic-closures" (words "define");
   Uses "srfi 149" "any" (words "car cdr define if or pair?");
   Uses "srfi 149" "find" (words "car cdr define if pair?");
   Uses "srfi 149" "syntax-rules-transformer" (words "%number->string + - <= = >= and any append assq cadr car cddr cdr cond cons define do eq? error find identifier->symbol
     identifier? if lambda length* let let* list map memq not null? pair? set! string->symbol string-append symbol->string vector->list
     vector?");
   Uses "srfi 149" "syntax-rules" (words "define-syntax er-macro-transformer lambda syntax-rules-transformer");
   (* srfi-16.ss:1-22 *)
   Uses "srfi 16" "case-lambda" (words "= >= apply define-syntax error if lambda length let letrec-syntax");
   (* srfi-23.ss:1-7 *)
   Uses "srfi 23" "error" (words "apply define error-object raise");
   (* srfi-34.ss:23-123 *)
   Uses "srfi 34" "current-exception-handlers" (words "current define");
   Uses "srfi 34" "install-exception-handlers!" (words "define install");
   Uses "srfi 34" "with-exception-handlers" (words "current-exception-handlers define dynamic-wind install-exception-handlers! lambda let");
   Uses "srfi 34" "with-exception-handler" (words "cons current-exception-handlers define with-exception-handlers");
   Uses "srfi 34" "raise" (words "car cdr current-exception-handlers define if lambda let pair? procedure? throw with-exception-handlers");
   Uses "srfi 34" "raise-continuable" (words "car cdr current-exception-handlers define if lambda let pair? procedure? throw with-exception-handlers");
   Uses "srfi 34" "" (words "kernel-exception-handler-set! raise");
   Uses "srfi 34" "guard-aux" (words "begin define-syntax if let or");
   Uses "srfi 34" "guard" (words "apply call-with-current-continuation call-with-values define-syntax guard-aux lambda let raise-continuable values
     with-exception-handler");
   (* srfi-38.ss:23-352 *)
   Uses "srfi 38" "write-with-shared-structure" (words "+ = and assq begin car cdar cdr cond cons current-output-port define display do eq? if lambda let not null? number? or pair?
     string-length string? vector-length vector-ref vector? write zero?");
   Uses "srfi 38" "read-with-shared-structure" (words "+ = and assv begin caadr car case cdr char-alphabetic? char-downcase char-numeric? char-upcase char-whitespace? char=? char? cond
     cons current-input-port define do eof-object? eqv? error if lambda let let* letrec list list->string list->vector make-string not
     null? or pair? peek-char procedure? read-char reverse set! set-car! set-cdr! string string->number string->symbol string-append
     string-ci=? string-length string-ref string-set! symbol->string symbol? vector-length vector-ref vector-set! vector?");
   (* srfi-39.ss:23-84 *)
   Uses "srfi 39" "current-dynamic-bindings" (words "current define");
   Uses "srfi 39" "install-dynamic-bindings!" (words "define install");
   Uses "srfi 39" "make-parameter" (words "assq car cdr cons current-dynamic-bindings define if lambda letrec null? set-car! set-cdr!");
   Uses "srfi 39" "dynamic-bind" (words "append cons current-dynamic-bindings define dynamic-wind install-dynamic-bindings! lambda map");
   Uses "srfi 39" "parameterize" (words "cadr car cddr cons define-syntax er-macro-transformer lambda list map");
   (* srfi-45.ss:1-51 *)
   Uses "srfi 45" "<promise>" (words "define list");
   Uses "srfi 45" "promise" (words "<promise> cons define");
   Uses "srfi 45" "promise?" (words "<promise> car define eq? if pair?");
   Uses "srfi 45" "promise-done?" (words "cadr define");
   Uses "srfi 45" "promise-value" (words "cddr define");
   Uses "srfi 45" "promise-update!" (words "cdr define promise-done? promise-value set-car! set-cdr!");
   Uses "srfi 45" "force" (words "define if lambda not promise-done? promise-update! promise-value");
   Uses "srfi 45" "lazy" (words "cadr define-syntax er-macro-transformer lambda list");
   Uses "srfi 45" "delay" (words "cadr define-syntax er-macro-transformer lambda list");
   Uses "srfi 45" "eager" (words "define delay if promise?");
   (* srfi-9.ss:23-142 *)
   Uses "srfi 9" "record-marker" (words "define list");
   Uses "srfi 9" "record?" (words "< and define eq? record-marker vector-length vector-ref vector?");
   Uses "srfi 9" "make-record" (words "+ define let make-vector record-marker vector-set!");
   Uses "srfi 9" "record-ref" (words "+ define vector-ref");
   Uses "srfi 9" "record-set!" (words "+ define vector-set!");
   Uses "srfi 9" ":record-type" (words "define make-record");
   Uses "srfi 9" "" (words ":record-type record-set!");
   Uses "srfi 9" "" (words ":record-type record-set!");
   Uses "srfi 9" "" (words ":record-type record-set!");
   Uses "srfi 9" "record-type" (words "define record-ref");
   Uses "srfi 9" "make-record-type" (words ":record-type define let make-record record-set!");
   Uses "srfi 9" "record-type-name" (words "define record-ref");
   Uses "srfi 9" "record-type-field-tags" (words "define record-ref");
   Uses "srfi 9" "field-index" (words "+ car cdr cond define eq? error let null? record-type-field-tags");
   Uses "srfi 9" "record-constructor" (words "+ = define error field-index for-each if lambda length let make-record map record-set! record-type-field-tags");
   Uses "srfi 9" "record-predicate" (words "and define eq? lambda record-type record?");
   Uses "srfi 9" "record-accessor" (words "and define eq? error field-index if lambda let record-ref record-type record?");
   Uses "srfi 9" "record-modifier" (words "and define eq? error field-index if lambda let record-set! record-type record?");
   Uses "srfi 9" "define-record-field" (words "begin define define-syntax record-accessor record-modifier");
   Uses "srfi 9" "define-record-type" (words "begin define define-record-field define-syntax make-record-type record-constructor record-predicate")
  ].

(** The environment of a library after its declarations: environment.cpp:170-185 and
    library.cpp:40-48 *)
Definition environment_of (d : declaration) : option bindings :=
  option_map (fun e => define_all (library_name d) (definitions d) (hold (library_name d) e)) (import_sets libraries (imports d) []).
(** identify, syntactic_environment.cpp:172-200: an identifier that is not in the
    environment gets a new binding, whose value is undefined; a binding that another
    library has made in this way is as undefined *)
Fixpoint holds (x : identity) : bool :=
  match x with Defined _ _ => true | Unbound _ _ => false | Made x | Held _ _ x => holds x end.
Definition identified (e : bindings) (n : string) : bool := match lookup n e with Some x => holds x | None => false end.
(** The names of a definition that have no value *)
Definition undefined_in (u : use) : list string :=
  match find (fun d => library_name d =? in_library u) declared with
  | Some d => match environment_of d with Some e => filter (fun n => negb (identified e n)) (used u) | None => used u end
  | None => used u
  end.
