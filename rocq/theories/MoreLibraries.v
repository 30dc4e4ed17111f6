(** The libraries of library/ that StandardLibraries.v leaves out, and the imports of main.cpp for
    an interactive session. *)
From Coq Require Import List String Bool.
From Verif Require Import StandardLibraries.
Import ListNotations.
Open Scope string_scope.

(** The libraries of boot.cpp that only these import *)
Definition builtin_more : list (string * list string) :=
  [
   (* boot.cpp:448-467 *)
   ("meevax binary64", words "binary64? binary64-least binary64-greatest binary64-epsilon binary64-integral-part binary64-fractional-part binary64-log-binary binary64-integer-log-binary binary64-normalized-fraction binary64-exponent binary64-sign-bit binary64-normalized? binary64-denormalized? binary64-max binary64-min binary64-fused-multiply-add binary64-remquo");
   (* boot.cpp:584-590 *)
   ("meevax integer32", words "integer32? integer32-width integer32-min integer32-max")].
(** boot, boot.cpp:441-928, for these *)
Definition booted_more : list (string * bindings) := map (fun '(l, ns) => (l, map (fun n => (n, Defined l n)) ns)) builtin_more.

(** Read off from the library declarations of the files and lines given with each; the bodies are
    left out but for the names they define at their top level. *)
Definition declared_more : list declaration :=
  [
   (* srfi-8.ss:23-30 *)
   Declaration "srfi 8"
     [(Whole "scheme base")]
     (plain (words "receive"))
     (words "receive");
   (* srfi-1.ss:9-902 *)
   Declaration "srfi 1"
     [(Only (Whole "meevax boolean") (words "not"));
      (Only (Whole "meevax core") (words "begin call-with-current-continuation! define if lambda letrec quote set!"));
      (Only (Whole "meevax list") (words "alist-cons alist-copy append append! append-reverse append-reverse! assq assv circular-list circular-list? concatenate concatenate! dotted-list? drop drop-right drop-right! eighth fifth first fourth iota last last-pair length length+ list list? list-copy list-ref make-list memq memv ninth null? null-list? reverse reverse! second seventh sixth take take! take-right tenth third"));
      (Only (Whole "meevax pair") (words "car cdr caar cadr cdar cddr caaar caadr cadar caddr cdaar cdadr cddar cdddr caaaar caaadr caadar caaddr cadaar cadadr caddar cadddr cdaaar cdaadr cdadar cdaddr cddaar cddadr cdddar cddddr cons cons* not-pair? pair? set-car! set-cdr! xcons"));
      (Only (Whole "scheme r5rs") (words "cond and or let let* eqv? eq? equal? = < zero? + - member assoc apply map for-each values"));
      (Only (Whole "srfi 8") (words "receive"));
      (Only (Whole "srfi 23") (words "error"))]
     (plain (words "cons list xcons cons* make-list list-tabulate list-copy circular-list iota pair? null? proper-list? circular-list? dotted-list? not-pair? null-list? list= car cdr caar cadr cdar cddr caaar caadr cadar caddr cdaar cdadr cddar cdddr caaaar caaadr caadar caaddr cadaar cadadr caddar cadddr cdaaar cdaadr cdadar cdaddr cddaar cddadr cdddar cddddr list-ref first second third fourth fifth sixth seventh eighth ninth tenth car+cdr take take! take-right drop drop-right drop-right! split-at split-at! last last-pair length length+ append append! concatenate concatenate! reverse reverse! append-reverse append-reverse! zip unzip1 unzip2 unzip3 unzip4 unzip5 count map map! filter-map map-in-order fold fold-right unfold unfold-right pair-fold pair-fold-right reduce reduce-right append-map append-map! for-each pair-for-each filter filter! partition partition! remove remove! memq memv member find find-tail any every list-index take-while take-while! drop-while span span! break break! delete delete! delete-duplicates delete-duplicates! assq assv assoc alist-cons alist-copy alist-delete alist-delete! lset<= lset= lset-adjoin lset-union lset-union! lset-intersection lset-intersection! lset-difference lset-difference! lset-xor lset-xor! lset-diff+intersection lset-diff+intersection! set-car! set-cdr!"))
     (words "%append-map %cars+ %cars+cdrs %cars+cdrs+ %cars+cdrs/no-test %cdrs %lset2<= alist-delete alist-delete! any append-map append-map! break break! car+cdr count delete delete! delete-duplicates delete-duplicates! drop-while every filter filter! filter-map find find-tail fold fold-right list-index list-tabulate list= lset-adjoin lset-diff+intersection lset-diff+intersection! lset-difference lset-difference! lset-intersection lset-intersection! lset-union lset-union! lset-xor lset-xor! lset<= lset= map! map-in-order pair-fold pair-fold-right pair-for-each partition partition! proper-list? reduce reduce-right remove remove! span span! split-at split-at! take-while take-while! unfold unfold-right unzip1 unzip2 unzip3 unzip4 unzip5 zip");
   (* srfi-151.ss:1-267 *)
   Declaration "srfi 151"
     [(Only (Whole "meevax number") (words "bitwise-not bitwise-and bitwise-ior bitwise-xor bit-shift bit-count bit-width"));
      (Whole "scheme base");
      (Whole "scheme case-lambda")]
     (plain (words "bitwise-not bitwise-and bitwise-ior bitwise-xor bitwise-eqv bitwise-nand bitwise-nor bitwise-andc1 bitwise-andc2 bitwise-orc1 bitwise-orc2 arithmetic-shift bit-count integer-length bitwise-if bit-set? copy-bit bit-swap any-bit-set? every-bit-set? first-set-bit bit-field bit-field-any? bit-field-every? bit-field-clear bit-field-set bit-field-replace bit-field-replace-same bit-field-rotate bit-field-reverse bits->list list->bits bits->vector vector->bits bits bitwise-fold bitwise-for-each bitwise-unfold make-bitwise-generator"))
     (words "any-bit-set? arithmetic-shift bit-field bit-field-any? bit-field-clear bit-field-every? bit-field-replace bit-field-replace-same bit-field-reverse bit-field-rotate bit-field-set bit-reverse bit-set? bit-swap bits bits->list bits->vector bitwise-andc1 bitwise-andc2 bitwise-eqv bitwise-fold bitwise-for-each bitwise-if bitwise-nand bitwise-nor bitwise-orc1 bitwise-orc2 bitwise-unfold copy-bit every-bit-set? first-set-bit integer-length list->bits make-bitwise-generator mask vector->bits");
   (* srfi-143.ss:1-154 *)
   Declaration "srfi 143"
     [(Only (Whole "meevax integer32") (words "integer32? integer32-width integer32-min integer32-max"));
      (Whole "scheme base");
      (Whole "scheme inexact");
      (Whole "srfi 141");
      (Whole "srfi 151")]
     (plain (words "fx-width fx-greatest fx-least fixnum? fx=? fx<? fx>? fx<=? fx>=? fxzero? fxpositive? fxnegative? fxodd? fxeven? fxmax fxmin fx+ fx- fxneg fx* fxquotient fxremainder fxabs fxsquare fxsqrt fx+/carry fx-/carry fx*/carry fxnot fxand fxior fxxor fxarithmetic-shift fxarithmetic-shift-left fxarithmetic-shift-right fxbit-count fxlength fxif fxbit-set? fxcopy-bit fxfirst-set-bit fxbit-field fxbit-field-rotate fxbit-field-reverse"))
     (words "fixnum? fx* fx*/carry fx+ fx+/carry fx- fx-/carry fx-greatest fx-least fx-width fx<=? fx<? fx=? fx>=? fx>? fxabs fxand fxarithmetic-shift fxarithmetic-shift-left fxarithmetic-shift-right fxbit-count fxbit-field fxbit-field-reverse fxbit-field-rotate fxbit-set? fxcopy-bit fxeven? fxfirst-set-bit fxif fxior fxlength fxmax fxmin fxneg fxnegative? fxnot fxodd? fxpositive? fxquotient fxremainder fxsqrt fxsquare fxxor fxzero?");
   (* srfi-144.ss:1-344 *)
   Declaration "srfi 144"
     [(Only (Whole "meevax binary64") (words "binary64-denormalized? binary64-epsilon binary64-exponent binary64-fractional-part binary64-fused-multiply-add binary64-greatest binary64-integer-log-binary binary64-integral-part binary64-least binary64-log-binary binary64-max binary64-min binary64-normalized-fraction binary64-normalized? binary64-remquo binary64-sign-bit binary64?"));
      (Only (Whole "meevax number") (words "sinh asinh cosh acosh tanh atanh erf erfc tgamma lgamma expm1 log1p ldexp nextafter copysign cyl_bessel_j cyl_neumann e pi euler phi"));
      (Only (Whole "scheme base") (words "* + - / < <= = > >= abs and car cdr ceiling cond-expand define denominator even? expt floor if inexact integer? lambda let negative? numerator odd? or positive? quotient remainder round square truncate values zero?"));
      (Only (Whole "scheme inexact") (words "acos asin atan cos exp finite? infinite? log nan? sin sqrt tan"))]
     (plain (words "fl-e fl-1/e fl-e-2 fl-e-pi/4 fl-log2-e fl-log10-e fl-log-2 fl-1/log-2 fl-log-3 fl-log-pi fl-log-10 fl-1/log-10 fl-pi fl-1/pi fl-2pi fl-pi/2 fl-pi/4 fl-pi-squared fl-degree fl-2/pi fl-2/sqrt-pi fl-sqrt-2 fl-sqrt-3 fl-sqrt-5 fl-sqrt-10 fl-1/sqrt-2 fl-cbrt-2 fl-cbrt-3 fl-4thrt-2 fl-phi fl-log-phi fl-1/log-phi fl-euler fl-e-euler fl-sin-1 fl-cos-1 fl-gamma-1/2 fl-gamma-1/3 fl-gamma-2/3 fl-greatest fl-least fl-epsilon fl-fast-fl+* fl-integer-exponent-zero fl-integer-exponent-nan flonum fladjacent flcopysign make-flonum flinteger-fraction flexponent flinteger-exponent flnormalized-fraction-exponent flsign-bit flonum? fl=? fl<? fl>? fl<=? fl>=? flunordered? flinteger? flzero? flpositive? flnegative? flodd? fleven? flfinite? flinfinite? flnan? flnormalized? fldenormalized? flmax flmin fl+ fl* fl+* fl- fl/ flabs flabsdiff flposdiff flsgn flnumerator fldenominator flfloor flceiling flround fltruncate flexp flexp2 flexp-1 flsquare flsqrt flcbrt flhypot flexpt fllog fllog1+ fllog2 fllog10 make-fllog-base flsin flcos fltan flasin flacos flatan flsinh flcosh fltanh flasinh flacosh flatanh flquotient flremainder flremquo flgamma flloggamma flfirst-bessel flsecond-bessel flerf flerfc"))
     (words "fl* fl+ fl+* fl- fl-1/e fl-1/log-10 fl-1/log-2 fl-1/log-phi fl-1/pi fl-1/sqrt-2 fl-2/pi fl-2/sqrt-pi fl-2pi fl-4thrt-2 fl-cbrt-2 fl-cbrt-3 fl-cos-1 fl-degree fl-e fl-e-2 fl-e-euler fl-e-pi/4 fl-epsilon fl-euler fl-fast-fl+* fl-gamma-1/2 fl-gamma-1/3 fl-gamma-2/3 fl-greatest fl-integer-exponent-nan fl-integer-exponent-zero fl-least fl-log-10 fl-log-2 fl-log-3 fl-log-phi fl-log-pi fl-log10-e fl-log2-e fl-phi fl-pi fl-pi-squared fl-pi/2 fl-pi/4 fl-sin-1 fl-sqrt-10 fl-sqrt-2 fl-sqrt-3 fl-sqrt-5 fl/ fl<=? fl<? fl=? fl>=? fl>? flabs flabsdiff flacos flacosh fladjacent flasin flasinh flatan flatanh flcbrt flceiling flcopysign flcos flcosh fldenominator fldenormalized? flerf flerfc fleven? flexp flexp-1 flexp2 flexponent flexpt flfinite? flfirst-bessel flfloor flgamma flhypot flinfinite? flinteger-exponent flinteger-fraction flinteger? fllog fllog1+ fllog10 fllog2 flloggamma flmax flmin flnan? flnegative? flnormalized-fraction-exponent flnormalized? flnumerator flodd? flonum flonum? flposdiff flpositive? flquotient flremainder flremquo flround flsecond-bessel flsgn flsign-bit flsin flsinh flsqrt flsquare fltan fltanh fltruncate flunordered? flzero? make-fllog-base make-flonum");
   (* srfi-4.ss:1-31 *)
   Declaration "srfi 4"
     [(Whole "meevax vector homogeneous")]
     (plain (words "f32vector? make-f32vector f32vector f32vector-length f32vector-ref f32vector-set! f32vector->list list->f32vector f64vector? make-f64vector f64vector f64vector-length f64vector-ref f64vector-set! f64vector->list list->f64vector s8vector? make-s8vector s8vector s8vector-length s8vector-ref s8vector-set! s8vector->list list->s8vector s16vector? make-s16vector s16vector s16vector-length s16vector-ref s16vector-set! s16vector->list list->s16vector s32vector? make-s32vector s32vector s32vector-length s32vector-ref s32vector-set! s32vector->list list->s32vector s64vector? make-s64vector s64vector s64vector-length s64vector-ref s64vector-set! s64vector->list list->s64vector u8vector? make-u8vector u8vector u8vector-length u8vector-ref u8vector-set! u8vector->list list->u8vector u16vector? make-u16vector u16vector u16vector-length u16vector-ref u16vector-set! u16vector->list list->u16vector u32vector? make-u32vector u32vector u32vector-length u32vector-ref u32vector-set! u32vector->list list->u32vector u64vector? make-u64vector u64vector u64vector-length u64vector-ref u64vector-set! u64vector->list list->u64vector"))
     (words "");
   (* srfi-31.ss:23-31 *)
   Declaration "srfi 31"
     [(Whole "scheme base")]
     (plain (words "rec"))
     (words "rec");
   (* srfi-78.ss:23-222 *)
   Declaration "srfi 78"
     [(Whole "scheme base");
      (Whole "scheme cxr");
      (Whole "scheme write")]
     (plain (words "check check-passed? check-report check-reset! check-set-mode!"))
     (words "check check-passed? check-report check-reset! check-set-mode! check:add-correct! check:add-failed! check:correct check:failed check:mode check:proc check:report-actual-result check:report-correct check:report-expression check:report-failed check:write");
   (* r7rs.ss:350-360 *)
   Declaration "scheme bitwise"
     [(Whole "srfi 151")]
     (plain (words "bitwise-not bitwise-and bitwise-ior bitwise-xor bitwise-eqv bitwise-nand bitwise-nor bitwise-andc1 bitwise-andc2 bitwise-orc1 bitwise-orc2 arithmetic-shift bit-count integer-length bitwise-if bit-set? copy-bit bit-swap any-bit-set? every-bit-set? first-set-bit bit-field bit-field-any? bit-field-every? bit-field-clear bit-field-set bit-field-replace bit-field-replace-same bit-field-rotate bit-field-reverse bits->list list->bits bits->vector vector->bits bits bitwise-fold bitwise-for-each bitwise-unfold make-bitwise-generator"))
     (words "");
   (* r7rs.ss:407-420 *)
   Declaration "scheme division"
     [(Whole "srfi 141")]
     (plain (words "ceiling/ ceiling-quotient ceiling-remainder round/ round-quotient round-remainder euclidean/ euclidean-quotient euclidean-remainder balanced/ balanced-quotient balanced-remainder"))
     (words "");
   (* r7rs.ss:435-443 *)
   Declaration "scheme fixnum"
     [(Whole "srfi 143")]
     (plain (words "fx-width fx-greatest fx-least fixnum? fx=? fx<? fx>? fx<=? fx>=? fxzero? fxpositive? fxnegative? fxodd? fxeven? fxmax fxmin fx+ fx- fxneg fx* fxquotient fxremainder fxabs fxsquare fxsqrt fx+/carry fx-/carry fx*/carry fxnot fxand fxior fxxor fxarithmetic-shift fxarithmetic-shift-left fxarithmetic-shift-right fxbit-count fxlength fxif fxbit-set? fxcopy-bit fxfirst-set-bit fxbit-field fxbit-field-rotate fxbit-field-reverse"))
     (words "");
   (* r7rs.ss:445-465 *)
   Declaration "scheme flonum"
     [(Whole "srfi 144")]
     (plain (words "fl-e fl-1/e fl-e-2 fl-e-pi/4 fl-log2-e fl-log10-e fl-log-2 fl-1/log-2 fl-log-3 fl-log-pi fl-log-10 fl-1/log-10 fl-pi fl-1/pi fl-2pi fl-pi/2 fl-pi/4 fl-pi-squared fl-degree fl-2/pi fl-2/sqrt-pi fl-sqrt-2 fl-sqrt-3 fl-sqrt-5 fl-sqrt-10 fl-1/sqrt-2 fl-cbrt-2 fl-cbrt-3 fl-4thrt-2 fl-phi fl-log-phi fl-1/log-phi fl-euler fl-e-euler fl-sin-1 fl-cos-1 fl-gamma-1/2 fl-gamma-1/3 fl-gamma-2/3 fl-greatest fl-least fl-epsilon fl-fast-fl+* fl-integer-exponent-zero fl-integer-exponent-nan flonum fladjacent flcopysign make-flonum flinteger-fraction flexponent flinteger-exponent flnormalized-fraction-exponent flsign-bit flonum? fl=? fl<? fl>? fl<=? fl>=? flunordered? flinteger? flzero? flpositive? flnegative? flodd? fleven? flfinite? flinfinite? flnan? flnormalized? fldenormalized? flmax flmin fl+ fl* fl+* fl- fl/ flabs flabsdiff flposdiff flsgn flnumerator fldenominator flfloor flceiling flround fltruncate flexp flexp2 flexp-1 flsquare flsqrt flcbrt flhypot flexpt fllog fllog1+ fllog2 fllog10 make-fllog-base flsin flcos fltan flasin flacos flatan flsinh flcosh fltanh flasinh flacosh flatanh flquotient flremainder flremquo flgamma flloggamma flfirst-bessel flsecond-bessel flerf flerfc"))
     (words "");
   (* r7rs.ss:476-497 *)
   Declaration "scheme list"
     [(Whole "srfi 1")]
     (plain (words "cons list xcons cons* make-list list-tabulate list-copy circular-list iota pair? null? proper-list? circular-list? dotted-list? not-pair? null-list? list= car cdr caar cadr cdar cddr caaar caadr cadar caddr cdaar cdadr cddar cdddr caaaar caaadr caadar caaddr cadaar cadadr caddar cadddr cdaaar cdaadr cdadar cdaddr cddaar cddadr cdddar cddddr list-ref first second third fourth fifth sixth seventh eighth ninth tenth car+cdr take take! take-right drop drop-right drop-right! split-at split-at! last last-pair length length+ append append! concatenate concatenate! reverse reverse! append-reverse append-reverse! zip unzip1 unzip2 unzip3 unzip4 unzip5 count map map! filter-map map-in-order fold fold-right unfold unfold-right pair-fold pair-fold-right reduce reduce-right append-map append-map! for-each pair-for-each filter filter! partition partition! remove remove! memq memv member find find-tail any every list-index take-while take-while! drop-while span span! break break! delete delete! delete-duplicates delete-duplicates! assq assv assoc alist-cons alist-copy alist-delete alist-delete! lset<= lset= lset-adjoin lset-union lset-union! lset-intersection lset-intersection! lset-difference lset-difference! lset-xor lset-xor! lset-diff+intersection lset-diff+intersection! set-car! set-cdr!"))
     (words "")
].

(** The evaluation of these declarations after those of StandardLibraries.v
    (load_scheme_libraries, configure/system.cpp:111-143, called at main.cpp:30).  Each library stands after those
    that it imports; the order of the files is left out. *)
Definition all_libraries : list (string * bindings) := result (evaluate_all declared_more (app libraries booted_more)).

(** main.cpp:34-54: the libraries imported for an interactive session, in this order *)
Definition session_imports : list string :=
  ["scheme base"; "scheme bitwise"; "scheme box"; "scheme case-lambda"; "scheme char"; "scheme complex"; "scheme cxr"; "scheme division";
   "scheme eval"; "scheme file"; "scheme fixnum"; "scheme flonum"; "scheme inexact"; "scheme lazy"; "scheme list"; "scheme load";
   "scheme process-context"; "scheme read"; "scheme repl"; "scheme time"; "scheme write"].

(** environment::import, environment.cpp:170-185, in the interaction environment: each binding is put
    in front, so that it hides earlier ones of the name *)
Definition import_session (ls : list (string * bindings)) (l : string) (e : bindings) : option bindings :=
  match import_set ls (Whole l) with Some xs => Some (rev_append xs e) | None => None end.
(** main.cpp:34-54; None: the error for a library that does not exist *)
Fixpoint import_each (ls : list (string * bindings)) (names : list string) (e : bindings) : option bindings :=
  match names with
  | [] => Some e
  | l :: names => match import_session ls l e with Some e => import_each ls names e | None => None end
  end.
