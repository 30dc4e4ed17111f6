(** Model of the standard libraries and of their import: the libraries of boot.cpp:441-928 and of the files in library/ as tables of names,
    library.cpp:72-102, environment.cpp:71-185.

    Simplifications: what a name is defined as is left out, a definition is the pair of its library and its name; the libraries are evaluated in the
    order of their dependencies and not at their first import (C93: each is evaluated once); within a library the imports come before the definitions, as in all
    the files; exports under another name come after the others.  The libraries that no library of R7RS is made of are left out. *)
From Coq Require Import String Ascii List Bool.
Import ListNotations.
Open Scope string_scope.

(** ** Declarations *)
Inductive set :=
| Whole (library : string) | Only (s : set) (names : list string) | Except (s : set) (names : list string)
| Prefix (s : set) (prefix : string) | Rename (s : set) (renamings : list (string * string)).
(** The exports are pairs of the name inside and the name outside *)
Record declaration := Declaration { library_name : string; imports : list set; exports : list (string * string); definitions : list string }.
(** Names between blanks, a notation for the tables *)
Fixpoint split_words (s word : string) : list string :=
  match s with
  | EmptyString => match word with EmptyString => [] | _ => [word] end
  | String c s => if (c =? " ")%char || (c =? "010")%char then match word with EmptyString => split_words s EmptyString | _ => word :: split_words s EmptyString end
                  else split_words s (word ++ String c EmptyString)
  end.
Definition words (s : string) : list string := split_words s EmptyString.
Definition plain (names : list string) : list (string * string) := map (fun n => (n, n)) names.

(** The libraries of boot.cpp that the others are made of *)
Definition builtin : list (string * list string) :=
  [
   (* boot.cpp:469-473 *)
   ("meevax boolean", (words "boolean? not"));
   (* boot.cpp:475-481 *)
   ("meevax box", (words "box box-ref box-set! box?"));
   (* boot.cpp:483-506 *)
   ("meevax character", (words "char->integer char-alphabetic? char-ci<=? char-ci<? char-ci=? char-ci>=? char-ci>? char-downcase char-lower-case? char-numeric? char-upcase
       char-upper-case? char-whitespace? char<=? char<? char=? char>=? char>? char? digit-value integer->char"));
   (* boot.cpp:514-519 *)
   ("meevax comparator", (words "eq? equal? eqv?"));
   (* boot.cpp:508-512 *)
   ("meevax context", (words "command-line emergency-exit"));
   (* boot.cpp:521-529, with syntactic_environment.cpp:337-355 *)
   ("meevax core", (words "begin call-with-current-continuation! conditional-expand current define define-syntax if include include-case-insensitive install lambda
       let-syntax letrec letrec-syntax quote quote-syntax set!"));
   (* boot.cpp:531-538 *)
   ("meevax environment", (words "environment eval expand interaction-environment load"));
   (* boot.cpp:540-548 *)
   ("meevax error", (words "error-object error-object? file-error? kernel-exception-handler-set! read-error? throw"));
   (* boot.cpp:550-555 *)
   ("meevax file", (words "delete-file file-exists? library-directories"));
   (* boot.cpp:592-640 *)
   ("meevax list", (words "alist-cons alist-copy append append! append-reverse append-reverse! assq assv circular-list circular-list? concatenate concatenate!
       dotted-list? drop drop-right drop-right! eighth fifth first fourth iota last last-pair length length+ list list-copy list-ref list-tail
       list? make-list memq memv ninth null-list? null? reverse reverse! second seventh sixth take take! take-right tenth third"));
   (* boot.cpp:642-732 *)
   ("meevax number", (words "* + - / < <= = > >= abs acos acosh angle asin asinh atan atanh bit-count bit-shift bit-width bitwise-and bitwise-ior bitwise-not bitwise-xor
       ceiling complex? copysign cos cosh cyl_bessel_j cyl_neumann denominator e erf erfc euler even? exact exact-integer-square-root
       exact-integer? exact? exp expm1 expt finite? floor gcd imag-part inexact inexact? infinite? integer? lcm ldexp lgamma log log1p magnitude
       make-polar make-rectangular max min modulo nan? negative? nextafter number->string number? numerator odd? phi pi positive? quotient
       rational? real-part real? remainder round sin sinh sqrt string->number tan tanh tgamma truncate zero?"));
   (* boot.cpp:734-773 *)
   ("meevax pair", (words "caaaar caaadr caaar caadar caaddr caadr caar cadaar cadadr cadar caddar cadddr caddr cadr car cdaaar cdaadr cdaar cdadar cdaddr cdadr cdar
       cddaar cddadr cddar cdddar cddddr cdddr cddr cdr cons cons* not-pair? pair? set-car! set-cdr! xcons"));
   (* boot.cpp:775-800 *)
   ("meevax port", (words "binary-port? close eof-object eof-object? flush get-output-string get-output-u8vector input-port? open-binary-input-file
       open-binary-output-file open-input-file open-input-string open-input-u8vector open-output-file open-output-string open-output-u8vector open?
       output-port? port? standard-error-port standard-input-port standard-output-port textual-port?"));
   (* boot.cpp:802-808 *)
   ("meevax procedure", (words "closure? continuation? procedure procedure?"));
   (* boot.cpp:810-822 *)
   ("meevax read", (words "get-char get-char-ready? get-line get-string get-u8 get-u8-ready? get-u8vector peek-char peek-u8 read"));
   (* boot.cpp:824-848 *)
   ("meevax string", (words "list->string make-string string string->list string-append string-ci<=? string-ci<? string-ci=? string-ci>=? string-ci>? string-copy
       string-copy! string-fill! string-length string-ref string-set! string<=? string<? string=? string>=? string>? string?"));
   (* boot.cpp:850-856 *)
   ("meevax symbol", (words "identifier->symbol string->symbol symbol->string symbol?"));
   (* boot.cpp:858-864 *)
   ("meevax syntactic-closure", (words "identifier? make-syntactic-closure syntactic-closure? transformer?"));
   (* boot.cpp:866-871 *)
   ("meevax system", (words "features get-environment-variable get-environment-variables"));
   (* boot.cpp:873-877 *)
   ("meevax time", (words "current-jiffy jiffies-per-second"));
   (* boot.cpp:879-895 *)
   ("meevax vector", (words "list->vector make-vector string->vector vector vector->list vector->string vector-append vector-copy vector-copy! vector-fill! vector-length
       vector-ref vector-set! vector?"));
   (* boot.cpp:897-917 *)
   ("meevax vector homogeneous", (words "f32vector f32vector->list f32vector-append f32vector-copy f32vector-copy! f32vector-length f32vector-ref f32vector-set! f32vector? f64vector
       f64vector->list f64vector-append f64vector-copy f64vector-copy! f64vector-length f64vector-ref f64vector-set! f64vector? list->f32vector
       list->f64vector list->s16vector list->s32vector list->s64vector list->s8vector list->u16vector list->u32vector list->u64vector
       list->u8vector make-f32vector make-f64vector make-s16vector make-s32vector make-s64vector make-s8vector make-u16vector make-u32vector
       make-u64vector make-u8vector s16vector s16vector->list s16vector-append s16vector-copy s16vector-copy! s16vector-length s16vector-ref
       s16vector-set! s16vector? s32vector s32vector->list s32vector-append s32vector-copy s32vector-copy! s32vector-length s32vector-ref
       s32vector-set! s32vector? s64vector s64vector->list s64vector-append s64vector-copy s64vector-copy! s64vector-length s64vector-ref
       s64vector-set! s64vector? s8vector s8vector->list s8vector-append s8vector-copy s8vector-copy! s8vector-length s8vector-ref s8vector-set!
       s8vector? string->u8vector u16vector u16vector->list u16vector-append u16vector-copy u16vector-copy! u16vector-length u16vector-ref
       u16vector-set! u16vector? u32vector u32vector->list u32vector-append u32vector-copy u32vector-copy! u32vector-length u32vector-ref
       u32vector-set! u32vector? u64vector u64vector->list u64vector-append u64vector-copy u64vector-copy! u64vector-length u64vector-ref
       u64vector-set! u64vector? u8vector u8vector->list u8vector->string u8vector-append u8vector-copy u8vector-copy! u8vector-length u8vector-ref
       u8vector-set! u8vector?"));
   (* boot.cpp:919-927 *)
   ("meevax write", (words "put-char put-string put-u8 put-u8vector write write-simple"))].

(** The libraries of the files in library/, each after those that it imports *)
Definition declared : list declaration :=
  [
   (* meevax.ss:1-41 *)
   Declaration "meevax macro-transformer"
     [(Only (Whole "meevax comparator") (words "eq? eqv?"));
      (Only (Whole "meevax core") (words "begin define if lambda quote set!"));
      (Only (Whole "meevax list") (words "assq null?"));
      (Only (Whole "meevax pair") (words "cons car cdr caar cdar"));
      (Only (Whole "meevax syntactic-closure") (words "identifier? syntactic-closure? make-syntactic-closure"))]
     (plain (words "make-syntactic-closure identifier? identifier=? sc-macro-transformer rsc-macro-transformer er-macro-transformer"))
     (words "er-macro-transformer identifier=? rsc-macro-transformer sc-macro-transformer");
   (* meevax.ss:43-100 *)
   Declaration "meevax continuation"
     [(Only (Whole "meevax context") (words "emergency-exit"));
      (Only (Whole "meevax comparator") (words "eq?"));
      (Only (Whole "meevax core") (words "begin call-with-current-continuation! current define if install lambda"));
      (Only (Whole "meevax pair") (words "caar car cdar cdr cons pair?"));
      (Only (Whole "meevax list") (words "null?"))]
     (plain (words "call-with-current-continuation dynamic-wind exit"))
     (words "call-with-current-continuation current-dynamic-extents dynamic-wind exit install-dynamic-extents!");
   (* meevax.ss:102-117 *)
   Declaration "meevax apply"
     [(Only (Whole "meevax core") (words "define if lambda"));
      (Only (Whole "meevax list") (words "append null? reverse"));
      (Only (Whole "meevax pair") (words "car cdr cons"))]
     (plain (words "apply"))
     (words "apply");
   (* meevax.ss:119-142 *)
   Declaration "meevax map"
     [(Only (Whole "meevax apply") (words "apply"));
      (Only (Whole "meevax core") (words "define if quote"));
      (Only (Whole "meevax list") (words "memq null? reverse"));
      (Only (Whole "meevax pair") (words "car cdr cons"))]
     (plain (words "map"))
     (words "map");
   (* srfi-39.ss:23-84 *)
   Declaration "srfi 39"
     [(Only (Whole "meevax core") (words "current install"));
      (Only (Whole "meevax continuation") (words "dynamic-wind"));
      (Only (Whole "meevax core") (words "define define-syntax if lambda letrec quote"));
      (Only (Whole "meevax list") (words "null? list append assq"));
      (Only (Whole "meevax macro-transformer") (words "er-macro-transformer"));
      (Only (Whole "meevax map") (words "map"));
      (Only (Whole "meevax pair") (words "cons car cdr cadr cddr set-car! set-cdr!"))]
     (plain (words "make-parameter parameterize"))
     (words "current-dynamic-bindings dynamic-bind install-dynamic-bindings! make-parameter parameterize");
   (* srfi-45.ss:1-51 *)
   Declaration "srfi 45"
     [(Only (Whole "meevax boolean") (words "not"));
      (Only (Whole "meevax comparator") (words "eq?"));
      (Only (Whole "meevax core") (words "define define-syntax if lambda quote"));
      (Only (Whole "meevax list") (words "list"));
      (Only (Whole "meevax macro-transformer") (words "er-macro-transformer"));
      (Only (Whole "meevax pair") (words "pair? cons car cdr cadr cddr set-car! set-cdr!"))]
     (plain (words "delay eager force lazy promise?"))
     (words "<promise> delay eager force lazy promise promise-done? promise-update! promise-value promise?");
   (* r4rs.ss:37-386 *)
   Declaration "scheme r4rs"
     [(Only (Whole "meevax apply") (words "apply"));
      (Only (Whole "meevax boolean") (words "boolean? not"));
      (Only (Whole "meevax character") (words "char? char=? char<? char>? char<=? char>=? char-ci=? char-ci<? char-ci>? char-ci<=? char-ci>=? char-alphabetic? char-numeric?
       char-whitespace? char-upper-case? char-lower-case? char->integer integer->char char-upcase char-downcase"));
      (Only (Whole "meevax comparator") (words "eq? eqv? equal?"));
      (Only (Whole "meevax continuation") (words "call-with-current-continuation"));
      (Only (Whole "meevax core") (words "begin define define-syntax if lambda letrec quote set!"));
      (Only (Whole "meevax list") (words "null? list? list length append reverse list-tail list-ref memq memv assq assv"));
      (Only (Whole "meevax macro-transformer") (words "er-macro-transformer identifier?"));
      (Only (Whole "meevax map") (words "map"));
      (Only (Whole "meevax number") (words "number? complex? real? rational? integer? exact? inexact? = < > <= >= zero? positive? negative? odd? even? max min + * - / abs quotient
       remainder modulo gcd lcm numerator denominator floor ceiling truncate round expt exp log sqrt sin cos tan asin acos atan make-rectangular
       make-polar real-part imag-part magnitude angle exact inexact number->string string->number"));
      (Only (Whole "meevax pair") (words "pair? cons car cdr set-car! set-cdr! caar cadr cdar cddr caaar caadr cadar caddr cdaar cdadr cddar cdddr caaaar caaadr caadar caaddr cadaar
       cadadr caddar cadddr cdaaar cdaadr cdadar cdaddr cddaar cddadr cdddar cddddr"));
      (Only (Whole "meevax port") (words "input-port? output-port? standard-input-port standard-output-port open-input-file open-output-file close eof-object?"));
      (Only (Whole "meevax procedure") (words "procedure?"));
      (Only (Whole "meevax string") (words "string? make-string string string-length string-ref string-set! string=? string<? string>? string<=? string>=? string-ci=? string-ci<?
       string-ci>? string-ci<=? string-ci>=? string-append string->list list->string string-copy string-fill!"));
      (Only (Whole "meevax symbol") (words "symbol? symbol->string string->symbol"));
      (Only (Whole "meevax vector") (words "vector? make-vector vector vector-length vector-ref vector-set! vector->list list->vector vector-fill!"));
      (Prefix (Whole "meevax read") "%");
      (Prefix (Whole "meevax write") "%");
      (Prefix (Only (Whole "meevax environment") (words "load")) "%");
      (Only (Whole "srfi 39") (words "make-parameter parameterize"));
      (Only (Whole "srfi 45") (words "delay force"))]
     (app (plain (words "quote lambda if set! cond case and or let let* letrec begin do delay quasiquote define not boolean? eqv? eq? equal? pair? cons car cdr
       set-car! set-cdr! caar cadr cdar cddr caaar caadr cadar caddr cdaar cdadr cddar cdddr caaaar caaadr caadar caaddr cadaar cadadr caddar
       cadddr cdaaar cdaadr cdadar cdaddr cddaar cddadr cdddar cddddr null? list? list length append reverse list-tail list-ref memq memv member
       assq assv assoc symbol? symbol->string string->symbol number? complex? real? rational? integer? exact? inexact? = < > <= >= zero? positive?
       negative? odd? even? max min + * - / abs quotient remainder modulo gcd lcm numerator denominator floor ceiling truncate round rationalize
       exp log sin cos tan asin acos atan sqrt expt make-rectangular make-polar real-part imag-part magnitude angle number->string string->number
       char? char=? char<? char>? char<=? char>=? char-ci=? char-ci<? char-ci>? char-ci<=? char-ci>=? char-alphabetic? char-numeric?
       char-whitespace? char-upper-case? char-lower-case? char->integer integer->char char-upcase char-downcase string? make-string string
       string-length string-ref string-set! string=? string<? string>? string<=? string>=? string-ci=? string-ci<? string-ci>? string-ci<=?
       string-ci>=? string-append string->list list->string string-copy string-fill! vector? make-vector vector vector-length vector-ref
       vector-set! vector->list list->vector vector-fill! procedure? apply map for-each force call-with-current-continuation call-with-input-file
       call-with-output-file input-port? output-port? current-input-port current-output-port with-input-from-file with-output-to-file
       open-input-file open-output-file close-input-port close-output-port read read-char peek-char eof-object? char-ready? write display newline
       write-char load")) [("inexact", "exact->inexact"); ("exact", "inexact->exact"); ("string-copy", "substring")])
     (words "and assoc call-with-input-file call-with-output-file case char-ready? close-input-port close-output-port cond current-input-port
       current-output-port display do for-each let let* load member newline or peek-char quasiquote rationalize read read-char with-input-from-file
       with-output-to-file write write-char");
   (* srfi-149.ss:26-300 *)
   Declaration "srfi 149"
     [(Only (Whole "meevax core") (words "define-syntax quote-syntax"));
      (Only (Whole "meevax macro-transformer") (words "er-macro-transformer identifier?"));
      (Only (Whole "meevax symbol") (words "identifier->symbol"));
      (Whole "scheme r4rs")]
     (plain (words "syntax-rules"))
     (words "%number->string any cons-source find length* strip-syntactic-closures syntax-quote syntax-rules syntax-rules-transformer");
   (* r5rs.ss:1-108 *)
   Declaration "scheme r5rs"
     [(Only (Whole "meevax continuation") (words "dynamic-wind"));
      (Only (Whole "meevax core") (words "define-syntax let-syntax letrec-syntax"));
      (Only (Whole "meevax environment") (words "environment eval"));
      (Whole "scheme r4rs");
      (Whole "srfi 149")]
     (plain (words "quote lambda if set! cond case and or let let* letrec begin do delay quasiquote let-syntax letrec-syntax syntax-rules define define-syntax
       eqv? eq? equal? number? complex? real? rational? integer? exact? inexact? = < > <= >= zero? positive? negative? odd? even? max min + * - /
       abs quotient remainder modulo gcd lcm numerator denominator floor ceiling truncate round rationalize exp log sin cos tan asin acos atan sqrt
       expt make-rectangular make-polar real-part imag-part magnitude angle exact->inexact inexact->exact number->string string->number not
       boolean? pair? cons car cdr set-car! set-cdr! caar cadr cdar cddr caaar caadr cadar caddr cdaar cdadr cddar cdddr caaaar caaadr caadar
       caaddr cadaar cadadr caddar cadddr cdaaar cdaadr cdadar cdaddr cddaar cddadr cdddar cddddr null? list? list length append reverse list-tail
       list-ref memq memv member assq assv assoc symbol? symbol->string string->symbol char? char=? char<? char>? char<=? char>=? char-ci=?
       char-ci<? char-ci>? char-ci<=? char-ci>=? char-alphabetic? char-numeric? char-whitespace? char-upper-case? char-lower-case? char->integer
       integer->char char-upcase char-downcase string? make-string string string-length string-ref string-set! string=? string<? string>? string<=?
       string>=? string-ci=? string-ci<? string-ci>? string-ci<=? string-ci>=? substring string-append string->list list->string string-copy
       string-fill! vector? make-vector vector vector-length vector-ref vector-set! vector->list list->vector vector-fill! procedure? apply map
       for-each force call-with-current-continuation values call-with-values dynamic-wind eval scheme-report-environment null-environment
       interaction-environment call-with-input-file call-with-output-file input-port? output-port? current-input-port current-output-port
       with-input-from-file with-output-to-file open-input-file open-output-file close-input-port close-output-port read read-char peek-char
       eof-object? char-ready? write display newline write-char load"))
     (words "<values> call-with-values null-environment scheme-report-environment values");
   (* srfi-0.ss:1-3 *)
   Declaration "srfi 0"
     [(Only (Whole "meevax core") (words "conditional-expand"))]
     (app (plain (words "")) [("conditional-expand", "cond-expand")])
     (words "");
   (* srfi-6.ss:1-3 *)
   Declaration "srfi 6"
     [(Whole "meevax port")]
     (plain (words "get-output-string open-input-string open-output-string"))
     (words "");
   (* srfi-9.ss:23-142 *)
   Declaration "srfi 9"
     [(Whole "scheme r5rs")]
     (plain (words "define-record-type"))
     (words ":record-type define-record-field define-record-type field-index make-record make-record-type record-accessor record-constructor
       record-marker record-modifier record-predicate record-ref record-set! record-type record-type-field-tags record-type-name record?");
   (* srfi-11.ss:1-31 *)
   Declaration "srfi 11"
     [(Whole "scheme r5rs")]
     (plain (words "let-values let*-values"))
     (words "let*-values let-values");
   (* srfi-34.ss:23-123 *)
   Declaration "srfi 34"
     [(Only (Whole "meevax error") (words "throw kernel-exception-handler-set!"));
      (Only (Whole "meevax core") (words "current install"));
      (Whole "scheme r5rs")]
     (plain (words "with-exception-handler raise raise-continuable guard"))
     (words "current-exception-handlers guard guard-aux install-exception-handlers! raise raise-continuable with-exception-handler
       with-exception-handlers");
   (* srfi-23.ss:1-7 *)
   Declaration "srfi 23"
     [(Only (Whole "meevax error") (words "error-object"));
      (Only (Whole "scheme r5rs") (words "define apply"));
      (Only (Whole "srfi 34") (words "raise"))]
     (plain (words "error"))
     (words "error");
   (* srfi-141.ss:1-94 *)
   Declaration "srfi 141"
     [(Whole "scheme r5rs")]
     (plain (words "floor/ floor-quotient floor-remainder ceiling/ ceiling-quotient ceiling-remainder truncate/ truncate-quotient truncate-remainder round/
       round-quotient round-remainder euclidean/ euclidean-quotient euclidean-remainder balanced/ balanced-quotient balanced-remainder"))
     (words "balanced-quotient balanced-remainder balanced/ ceiling-quotient ceiling-remainder ceiling/ euclidean-quotient euclidean-remainder euclidean/
       floor-quotient floor-remainder floor/ round-quotient round-remainder round/ truncate-quotient truncate-remainder truncate/");
   (* r7rs.ss:1-348 *)
   Declaration "scheme base"
     [(Only (Whole "meevax core") (words "include include-case-insensitive"));
      (Only (Whole "meevax error") (words "error-object? read-error? file-error?"));
      (Only (Whole "meevax list") (words "make-list list-copy"));
      (Only (Whole "meevax macro-transformer") (words "er-macro-transformer"));
      (Only (Whole "meevax number") (words "exact-integer? exact-integer-square-root"));
      (Only (Whole "meevax port") (words "binary-port? eof-object flush get-output-u8vector open-input-u8vector open-output-u8vector open? port? standard-error-port
       standard-input-port standard-output-port textual-port?"));
      (Only (Whole "meevax string") (words "string-copy!"));
      (Only (Whole "meevax system") (words "features"));
      (Only (Whole "meevax vector homogeneous") (words "u8vector? make-u8vector u8vector u8vector-length u8vector-ref u8vector-set! u8vector-copy u8vector-copy! u8vector-append u8vector->string
       string->u8vector"));
      (Only (Whole "meevax vector") (words "vector-append vector-copy vector-copy! vector->string string->vector"));
      (Prefix (Whole "meevax read") "%");
      (Prefix (Whole "meevax write") "%");
      (Whole "scheme r5rs");
      (Whole "srfi 0");
      (Whole "srfi 6");
      (Whole "srfi 9");
      (Whole "srfi 11");
      (Whole "srfi 23");
      (Whole "srfi 34");
      (Whole "srfi 39");
      (Whole "srfi 141")]
     (plain (words "quote lambda if set! include include-ci cond else => case and or when unless cond-expand let let* letrec letrec* let-values let*-values
       begin do make-parameter parameterize guard quasiquote unquote unquote-splicing let-syntax letrec-syntax syntax-rules _ ... syntax-error
       define define-values define-syntax define-record-type eqv? eq? equal? number? complex? real? rational? integer? exact? inexact?
       exact-integer? = < > <= >= zero? positive? negative? odd? even? max min + * - / abs floor/ floor-quotient floor-remainder truncate/
       truncate-quotient truncate-remainder quotient remainder modulo gcd lcm numerator denominator floor ceiling truncate round rationalize square
       exact-integer-sqrt expt inexact exact number->string string->number not boolean? boolean=? pair? cons car cdr set-car! set-cdr! caar cadr
       cdar cddr null? list? make-list list length append reverse list-tail list-ref list-set! memq memv member assq assv assoc list-copy symbol?
       symbol=? symbol->string string->symbol char? char=? char<? char>? char<=? char>=? char->integer integer->char string? make-string string
       string-length string-ref string-set! string=? string>? string<? string<=? string>=? substring string-append string->list list->string
       string-copy string-copy! string-fill! vector? make-vector vector vector-length vector-ref vector-set! vector->list list->vector
       vector->string string->vector vector-copy vector-copy! vector-append vector-fill! bytevector? make-bytevector bytevector bytevector-length
       bytevector-u8-ref bytevector-u8-set! bytevector-copy bytevector-copy! bytevector-append utf8->string string->utf8 procedure? apply map
       string-map vector-map for-each string-for-each vector-for-each call-with-current-continuation call/cc values call-with-values dynamic-wind
       with-exception-handler raise raise-continuable error error-object? error-object-message error-object-irritants read-error? file-error?
       call-with-port input-port? output-port? textual-port? binary-port? port? input-port-open? output-port-open? current-input-port
       current-output-port current-error-port close-port close-input-port close-output-port open-input-string open-output-string get-output-string
       open-input-bytevector open-output-bytevector get-output-bytevector read-char peek-char read-line eof-object? eof-object char-ready?
       read-string read-u8 peek-u8 u8-ready? read-bytevector read-bytevector! newline write-char write-string write-u8 write-bytevector
       flush-output-port features"))
     (words "boolean=? bytevector bytevector-append bytevector-copy bytevector-copy! bytevector-length bytevector-u8-ref bytevector-u8-set! bytevector?
       call-with-port call/cc char-ready? close-port current-error-port define-values error-object-irritants error-object-message exact
       exact-integer-sqrt flush-output-port get-output-bytevector include-ci inexact input-port-open? letrec* list-set! make-bytevector newline
       open-input-bytevector open-output-bytevector output-port-open? peek-char peek-u8 read-bytevector read-bytevector! read-char read-line
       read-string read-u8 square string->utf8 string-for-each string-map symbol=? syntax-error u8-ready? unless utf8->string vector-for-each
       vector-map when write-bytevector write-char write-string write-u8");
   (* srfi-16.ss:1-22 *)
   Declaration "srfi 16"
     [(Only (Whole "scheme r5rs") (words "define-syntax syntax-rules lambda let length letrec-syntax error if = quote >= apply"));
      (Only (Whole "srfi 23") (words "error"))]
     (plain (words "case-lambda"))
     (words "case-lambda");
   (* r7rs.ss:366-368 *)
   Declaration "scheme case-lambda"
     [(Whole "srfi 16")]
     (plain (words "case-lambda"))
     (words "");
   (* r7rs.ss:370-390 *)
   Declaration "scheme char"
     [(Only (Whole "meevax character") (words "digit-value"));
      (Only (Whole "scheme r5rs") (words "char-ci=? char-ci<? char-ci>? char-ci<=? char-ci>=? char-alphabetic? char-numeric? char-whitespace? char-upper-case? char-lower-case?
       char-upcase char-downcase string-ci=? string-ci<? string-ci>? string-ci<=? string-ci>=?"));
      (Only (Whole "scheme base") (words "define string-map"))]
     (plain (words "char-ci=? char-ci<? char-ci>? char-ci<=? char-ci>=? char-alphabetic? char-numeric? char-whitespace? char-upper-case? char-lower-case?
       digit-value char-upcase char-downcase char-foldcase string-ci=? string-ci<? string-ci>? string-ci<=? string-ci>=? string-upcase
       string-downcase string-foldcase"))
     (words "char-foldcase string-downcase string-foldcase string-upcase");
   (* r7rs.ss:392-394 *)
   Declaration "scheme complex"
     [(Only (Whole "scheme r5rs") (words "make-rectangular make-polar real-part imag-part magnitude angle"))]
     (plain (words "make-rectangular make-polar real-part imag-part magnitude angle"))
     (words "");
   (* r7rs.ss:396-405 *)
   Declaration "scheme cxr"
     [(Whole "meevax pair")]
     (plain (words "caaar caaaar cdaaar caadr caaadr cdaadr cadar caadar cdadar caddr caaddr cdaddr cdaar cadaar cddaar cdadr cadadr cddadr cddar caddar cdddar
       cdddr cadddr cddddr"))
     (words "");
   (* r7rs.ss:422-424 *)
   Declaration "scheme eval"
     [(Only (Whole "meevax environment") (words "environment eval"))]
     (plain (words "environment eval"))
     (words "");
   (* r7rs.ss:426-433 *)
   Declaration "scheme file"
     [(Only (Whole "meevax file") (words "delete-file file-exists?"));
      (Only (Whole "meevax port") (words "open-binary-input-file open-binary-output-file"));
      (Only (Whole "scheme base") (words "close-input-port close-output-port current-input-port current-output-port define parameterize"));
      (Only (Whole "scheme r5rs") (words "call-with-input-file call-with-output-file open-input-file open-output-file with-input-from-file with-output-to-file"))]
     (plain (words "call-with-input-file call-with-output-file delete-file file-exists? open-binary-input-file open-binary-output-file open-input-file
       open-output-file with-input-from-file with-output-to-file"))
     (words "");
   (* r7rs.ss:467-470 *)
   Declaration "scheme inexact"
     [(Only (Whole "meevax number") (words "finite? infinite? nan?"));
      (Only (Whole "scheme r5rs") (words "exp log sin cos tan asin acos atan sqrt"))]
     (plain (words "finite? infinite? nan? exp log sin cos tan asin acos atan sqrt"))
     (words "");
   (* r7rs.ss:472-474 *)
   Declaration "scheme lazy"
     [(Whole "srfi 45")]
     (app (plain (words "delay force promise?")) [("lazy", "delay-force"); ("eager", "make-promise")])
     (words "");
   (* r7rs.ss:499-501 *)
   Declaration "scheme load"
     [(Only (Whole "scheme r5rs") (words "load"))]
     (plain (words "load"))
     (words "");
   (* srfi-98.ss:1-4 *)
   Declaration "srfi 98"
     [(Whole "meevax system")]
     (plain (words "get-environment-variable get-environment-variables"))
     (words "");
   (* r7rs.ss:503-511 *)
   Declaration "scheme process-context"
     [(Only (Whole "meevax context") (words "command-line emergency-exit"));
      (Only (Whole "meevax continuation") (words "exit"));
      (Whole "srfi 98")]
     (plain (words "command-line exit emergency-exit get-environment-variable get-environment-variables"))
     (words "");
   (* r7rs.ss:513-520 *)
   Declaration "scheme read"
     [(Prefix (Whole "meevax read") "%");
      (Only (Whole "scheme base") (words "define if pair? car current-input-port"))]
     (plain (words "read"))
     (words "read");
   (* r7rs.ss:522-524 *)
   Declaration "scheme repl"
     [(Only (Whole "meevax environment") (words "interaction-environment"))]
     (plain (words "interaction-environment"))
     (words "");
   (* r7rs.ss:526-532 *)
   Declaration "scheme time"
     [(Only (Whole "meevax time") (words "current-jiffy jiffies-per-second"));
      (Only (Whole "scheme base") (words "/ define inexact"))]
     (plain (words "current-second current-jiffy jiffies-per-second"))
     (words "current-second");
   (* srfi-38.ss:23-352 *)
   Declaration "srfi 38"
     [(Whole "scheme r5rs");
      (Whole "srfi 23")]
     (app (plain (words "write-with-shared-structure read-with-shared-structure")) [("write-with-shared-structure", "write/ss"); ("read-with-shared-structure", "read/ss")])
     (words "read-with-shared-structure write-with-shared-structure");
   (* r7rs.ss:534-561 *)
   Declaration "scheme write"
     [(Prefix (Whole "meevax write") "%");
      (Whole "scheme base");
      (Only (Whole "srfi 38") (words "write-with-shared-structure"))]
     (plain (words "write write-shared write-simple display"))
     (words "display write write-shared write-simple");
   (* srfi-111.ss:1-3 *)
   Declaration "srfi 111"
     [(Whole "meevax box")]
     (app (plain (words "box box?")) [("box-ref", "unbox"); ("box-set!", "set-box!")])
     (words "");
   (* r7rs.ss:362-364 *)
   Declaration "scheme box"
     [(Whole "srfi 111")]
     (plain (words "box box? unbox set-box!"))
     (words "")].

(** ** Import *)
(** An absolute identity: that of a name of boot.cpp or of a definition, that of a name which is exported but neither imported nor defined
    (identify, syntactic_environment.cpp:171-194), or one that was made for another name (make<absolute>, library.cpp:92, environment.cpp:112 and 134), with the
    value of an identity; the latter is a new object at each import, which the importing library holds under the name and may export *)
Inductive identity := Defined (library name : string) | Unbound (library name : string) | Made (origin : identity) | Held (library name : string) (origin : identity).
Definition bindings := list (string * identity).
(** assq in the member second *)
Fixpoint lookup {A} (n : string) (e : list (string * A)) : option A := match e with [] => None | (m, x) :: e => if (m =? n) then Some x else lookup n e end.
Fixpoint identical (x y : identity) : bool :=
  match x, y with
  | Defined l n, Defined k m | Unbound l n, Unbound k m => (l =? k) && (n =? m)
  | Made x, Made y => identical x y
  | Held l n x, Held k m y => (l =? k) && (n =? m) && identical x y
  | _, _ => false
  end.
(** x == y of objects; what a library holds under a name is one object; an identity that was made is no other object (an import set has no name twice, see C123_exports) *)
Definition same (x y : identity) : bool :=
  match x, y with
  | Defined l n, Defined k m | Unbound l n, Unbound k m => (l =? k) && (n =? m)
  | Held l n x, Held k m y => (l =? k) && (n =? m) && identical x y
  | _, _ => false
  end.
(** import_set, environment.cpp:71-168, where each library has its import set; None: no such library *)
Fixpoint import_set (libraries : list (string * bindings)) (s : set) : option bindings :=
  match s with
  | Whole l => lookup l libraries
  | Only s ns => option_map (filter (fun x => existsb (String.eqb (fst x)) ns)) (import_set libraries s)
  | Except s ns => option_map (filter (fun x => negb (existsb (String.eqb (fst x)) ns))) (import_set libraries s)
  | Prefix s p => option_map (map (fun x => (p ++ fst x, Made (snd x)))) (import_set libraries s)
  | Rename s rs => option_map (map (fun x => match lookup (fst x) rs with Some m => (m, Made (snd x)) | None => x end)) (import_set libraries s)
  end.
(** The loop of environment::import, environment.cpp:170-185, outside the interaction environment; None: the error *)
Fixpoint import_all (xs e : bindings) : option bindings :=
  match xs with
  | [] => Some e
  | (n, x) :: xs => match lookup n e with
                    | None => import_all xs ((n, x) :: e)
                    | Some y => if same x y then import_all xs e else None
                    end
  end.
Fixpoint import_sets (libraries : list (string * bindings)) (ss : list set) (e : bindings) : option bindings :=
  match ss with
  | [] => Some e
  | s :: ss => match import_set libraries s with
               | Some xs => match import_all xs e with Some e => import_sets libraries ss e | None => None end
               | None => None
               end
  end.
(** The identities that were made when the library was evaluated are objects in its member second *)
Definition hold (library : string) (e : bindings) : bindings :=
  map (fun x => match snd x with Made o => (fst x, Held library (fst x) o) | _ => x end) e.
(** Definitions, by environment::evaluate and generator::define: a name that is imported keeps its identity, which is assigned *)
Fixpoint define_all (library : string) (ns : list string) (e : bindings) : bindings :=
  match ns with [] => e | n :: ns => define_all library ns (match lookup n e with Some _ => e | None => (n, Defined library n) :: e end) end.
(** library::import_set, library.cpp:83-101 *)
Definition export_set (library : string) (e : bindings) (specs : list (string * string)) : bindings :=
  map (fun '(inside, outside) =>
         let x := match lookup inside e with Some x => x | None => Unbound library inside end in
         (outside, if inside =? outside then x else Made x)) specs.
Definition evaluate (libraries : list (string * bindings)) (d : declaration) : option (list (string * bindings)) :=
  match import_sets libraries (imports d) [] with
  | Some e => Some (app libraries [(library_name d, export_set (library_name d) (define_all (library_name d) (definitions d) (hold (library_name d) e)) (exports d))])
  | None => None
  end.
Fixpoint evaluate_all (ds : list declaration) (libraries : list (string * bindings)) : option (list (string * bindings)) :=
  match ds with [] => Some libraries | d :: ds => match evaluate libraries d with Some l => evaluate_all ds l | None => None end end.
(** boot, boot.cpp:441-928, and the evaluation of all the libraries *)
Definition booted : list (string * bindings) := map (fun '(l, ns) => (l, map (fun n => (n, Defined l n)) ns)) builtin.
Definition result (l : option (list (string * bindings))) : list (string * bindings) := match l with Some l => l | None => [] end.
Definition libraries : list (string * bindings) := result (evaluate_all declared booted).
(** The names that a library defines although it imports them: the definition assigns the binding of the other library *)
Definition redefined (d : declaration) : list (string * identity) :=
  match import_sets libraries (imports d) [] with
  | Some e => flat_map (fun n => match lookup n e with Some x => [(n, x)] | None => [] end) (definitions d)
  | None => []
  end.
