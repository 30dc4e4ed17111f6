(** The types of objects: what is<T>, is_also<T> and as<T> of an object say, and the type
    predicates of boot.cpp and the libraries.  The word of an object is that of NanBox.v; a heap
    gives for an address the class T that the object was made of by make<T> (collector.hpp:174-196,
    as binder<T>), and None where there is no object. *)
From Coq Require Import NArith ZArith List Bool.
From Verif Require Import NanBox.
Import ListNotations.
Open Scope N_scope.

(** The classes of which objects are made (every make<T> of src and include), and their bases.
    The ten homogeneous vectors (homogeneous_vector.hpp:108-123) are one constructor with the
    element type; of ports on them only those on u8 exist (input_homogeneous_vector_port.hpp:98,
    output_homogeneous_vector_port.hpp:60).  Characters are a class (character.hpp:26), so that
    make<character> makes an object of them as well (collector.hpp:177). *)
Inductive element := S8 | S16 | S32 | S64 | U8 | U16 | U32 | U64 | F32 | F64.
Inductive class :=
| Pair | Box | Closure | Continuation | Complex | Error | FileError | ReadError | Absolute | Macro | Relative | Variadic
| Transformer | SyntacticEnvironment | Environment | DynamicEnvironment
| Identifier | Character | Symbol | SyntacticClosure | Syntax | Procedure | Library | Eof | Ghost | String | Vector
| Homogeneous (e : element) | LargeInteger | RatioNumber | DatumLabel
| Port | InputPort | OutputPort | BinaryPort | TextualPort | BinaryInputPort | BinaryOutputPort | TextualInputPort | TextualOutputPort
| BinaryInputFilePort | BinaryOutputFilePort | InputFilePort | OutputFilePort | InputStringPort | OutputStringPort
| InputU8VectorPort | OutputU8VectorPort | StandardInputPort | StandardOutputPort | StandardErrorPort.
(** The bases named in the declarations: box.hpp:24, closure.hpp:24, continuation.hpp:24,
    complex.hpp:26, error.hpp:24,53,62, identity.hpp:24,31,36,46, transformer.hpp:24,
    syntactic_environment.hpp:26, environment.hpp:27-28, symbol.hpp:26, syntactic_closure.hpp:25,
    port.hpp:22, input_port.hpp:24, output_port.hpp:24, binary_port.hpp:24, textual_port.hpp:24,
    binary_input_port.hpp:26, binary_output_port.hpp:26, textual_input_port.hpp:26,
    textual_output_port.hpp:26, binary_input_file_port.hpp:27, binary_output_file_port.hpp:27,
    input_file_port.hpp:26, output_file_port.hpp:26, input_string_port.hpp:25,
    output_string_port.hpp:25, input_homogeneous_vector_port.hpp:29,
    output_homogeneous_vector_port.hpp:26, standard_input_port.hpp:24, standard_output_port.hpp:24,
    standard_error_port.hpp:24; std::exception is left out. *)
Definition bases (c : class) : list class :=
  match c with
  | Box | Closure | Continuation | Complex | Error | Absolute | Relative | Variadic | Transformer | SyntacticEnvironment => [Pair]
  | FileError | ReadError => [Error]
  | Macro => [Absolute]
  | Environment => [DynamicEnvironment; SyntacticEnvironment]
  | Symbol | SyntacticClosure => [Identifier]
  | InputPort | OutputPort | BinaryPort | TextualPort => [Port]
  | BinaryInputPort => [BinaryPort; InputPort]
  | BinaryOutputPort => [BinaryPort; OutputPort]
  | TextualInputPort => [TextualPort; InputPort]
  | TextualOutputPort => [TextualPort; OutputPort]
  | BinaryInputFilePort | InputU8VectorPort => [BinaryInputPort]
  | BinaryOutputFilePort | OutputU8VectorPort => [BinaryOutputPort]
  | InputFilePort | InputStringPort | StandardInputPort => [TextualInputPort]
  | OutputFilePort | OutputStringPort | StandardOutputPort | StandardErrorPort => [TextualOutputPort]
  | _ => []
  end.
(** The identity of a class (typeid), as a number *)
Definition class_code (c : class) : N :=
  match c with
  | Pair => 1 | Box => 2 | Closure => 3 | Continuation => 4 | Complex => 5 | Error => 6 | FileError => 7 | ReadError => 8 | Absolute => 9
  | Macro => 10 | Relative => 11 | Variadic => 12 | Transformer => 13 | SyntacticEnvironment => 14 | Environment => 15 | DynamicEnvironment => 16
  | Identifier => 17 | Character => 18 | Symbol => 19 | SyntacticClosure => 20 | Syntax => 21 | Procedure => 22 | Library => 23 | Eof => 24
  | Ghost => 25 | String => 26 | Vector => 27 | Homogeneous S8 => 28 | Homogeneous S16 => 29 | Homogeneous S32 => 30 | Homogeneous S64 => 31
  | Homogeneous U8 => 32 | Homogeneous U16 => 33 | Homogeneous U32 => 34 | Homogeneous U64 => 35 | Homogeneous F32 => 36 | Homogeneous F64 => 37
  | LargeInteger => 38 | RatioNumber => 39 | DatumLabel => 40 | Port => 41 | InputPort => 42 | OutputPort => 43 | BinaryPort => 44 | TextualPort => 45
  | BinaryInputPort => 46 | BinaryOutputPort => 47 | TextualInputPort => 48 | TextualOutputPort => 49 | BinaryInputFilePort => 50
  | BinaryOutputFilePort => 51 | InputFilePort => 52 | OutputFilePort => 53 | InputStringPort => 54 | OutputStringPort => 55 | InputU8VectorPort => 56
  | OutputU8VectorPort => 57 | StandardInputPort => 58 | StandardOutputPort => 59 | StandardErrorPort => 60
  end.
Definition class_of_code (n : N) : class :=
  match n with
  | 1 => Pair | 2 => Box | 3 => Closure | 4 => Continuation | 5 => Complex | 6 => Error | 7 => FileError | 8 => ReadError | 9 => Absolute
  | 10 => Macro | 11 => Relative | 12 => Variadic | 13 => Transformer | 14 => SyntacticEnvironment | 15 => Environment | 16 => DynamicEnvironment
  | 17 => Identifier | 18 => Character | 19 => Symbol | 20 => SyntacticClosure | 21 => Syntax | 22 => Procedure | 23 => Library | 24 => Eof
  | 25 => Ghost | 26 => String | 27 => Vector | 28 => Homogeneous S8 | 29 => Homogeneous S16 | 30 => Homogeneous S32 | 31 => Homogeneous S64
  | 32 => Homogeneous U8 | 33 => Homogeneous U16 | 34 => Homogeneous U32 | 35 => Homogeneous U64 | 36 => Homogeneous F32 | 37 => Homogeneous F64
  | 38 => LargeInteger | 39 => RatioNumber | 40 => DatumLabel | 41 => Port | 42 => InputPort | 43 => OutputPort | 44 => BinaryPort | 45 => TextualPort
  | 46 => BinaryInputPort | 47 => BinaryOutputPort | 48 => TextualInputPort | 49 => TextualOutputPort | 50 => BinaryInputFilePort
  | 51 => BinaryOutputFilePort | 52 => InputFilePort | 53 => OutputFilePort | 54 => InputStringPort | 55 => OutputStringPort | 56 => InputU8VectorPort
  | 57 => OutputU8VectorPort | 58 => StandardInputPort | 59 => StandardOutputPort | 60 => StandardErrorPort
  | _ => Pair
  end.
Definition class_eqb (x y : class) : bool := class_code x =? class_code y.
Lemma class_eqb_eq x y : class_eqb x y = true <-> x = y.
Proof.
  unfold class_eqb. rewrite N.eqb_eq. split; [|intros ->; reflexivity]. intros E.
  assert (D : forall c, class_of_code (class_code c) = c) by (intros c; destruct c; try match goal with e : element |- _ => destruct e end; reflexivity).
  rewrite <- (D x), <- (D y), E. reflexivity.
Qed.
(** Whether a class is u or derived from it.  No chain of declarations has more than four steps,
    so that the fuel 5 that [is_also] gives is enough. *)
Fixpoint derived (fuel : nat) (u c : class) : bool :=
  class_eqb u c || match fuel with O => false | S k => existsb (derived k u) (bases c) end.

Definition heap := N -> option class.
(** collector.cpp:98-101 object::type, collector.hpp:119-122 binder::type, pair.cpp:28-31: the type
    that the word has, or the class that the object was made of.  TPtr is for an address without an
    object.  typeid(character) is one type, whether a word or an object holds the character. *)
Inductive type := Immediate (t : tag) | Class (c : class).
Definition type_in (h : heap) (x : N) : type :=
  if truthy x then match h (payload x) with Some c => Class c | None => Immediate TPtr end
  else match type_of x with TChar => Class Character | t => Immediate t end.
Definition tag_eqb (x y : tag) : bool :=
  match x, y with
  | TBool, TBool | TInt, TInt | TFloat, TFloat | TChar, TChar | TInstr, TInstr | TPtr, TPtr | TNull, TNull | TDouble, TDouble => true
  | _, _ => false
  end.
Definition type_eqb (x y : type) : bool :=
  match x, y with Immediate t, Immediate u => tag_eqb t u | Class c, Class d => class_eqb c d | _, _ => false end.
(** object.hpp:144-148 is<T> *)
Definition is (u : type) (h : heap) (x : N) : bool := type_eqb (type_in h x) u.
(** object.hpp:150-154 is_also<T>: dynamic_cast of the address, which is nullptr for immediate
    values.  The object is a binder<T>, which has the bases pair and T (collector.hpp:76-78, 147-148). *)
Definition is_also (u : class) (h : heap) (x : N) : bool :=
  match get x with
  | Some a => match h a with Some c => class_eqb u Pair || derived 5 u c | None => false end
  | None => false
  end.
(** object.hpp:114-136 as<T> *)
Inductive conversion := Converted (v : value) | Refused | Undefined.
(** T other than pair: dynamic_cast, or std::runtime_error; the value is the address *)
Definition as_class (u : class) (h : heap) (x : N) : conversion :=
  if class_eqb u Pair then match get x with Some a => Converted (VPtr a) | None => Undefined end
  else if is_also u h x then match get x with Some a => Converted (VPtr a) | None => Refused end else Refused.
(** immediate types: the bits of the word, whatever they mean *)
Definition as_immediate (t : tag) (x : N) : conversion := Converted (as_ t x).

(** * The predicates of R7RS 3.2 *)
(** boot.cpp:82, 90, 138, 270, 328, 348, 371, 388; r7rs.ss:180 and boot.cpp:404 bytevector? *)
Definition boolean_p := is (Immediate TBool).
Definition char_p := is (Class Character).
Definition null_p := is (Immediate TNull).
Definition pair_p := is (Class Pair).
Definition eof_object_p := is (Class Eof).
Definition string_p := is (Class String).
Definition symbol_p := is (Class Symbol).
Definition vector_p := is (Class Vector).
Definition bytevector_p := is (Class (Homogeneous U8)).
(** boot.cpp:185 number?, number.cpp:574-582 is_complex, number.hpp:541-561 test, 587 complex_number *)
Definition number_p (h : heap) (x : N) : bool :=
  existsb (fun t => is t h x) [Immediate TInt; Class LargeInteger; Class RatioNumber; Immediate TFloat; Immediate TDouble; Class Complex].
(** boot.cpp:334 procedure? *)
Definition procedure_p (h : heap) (x : N) : bool := is (Class Closure) h x || is (Class Continuation) h x || is (Class Procedure) h x.
(** boot.cpp:308-312 *)
Definition input_port_p := is_also InputPort.
Definition output_port_p := is_also OutputPort.
Definition binary_port_p := is_also BinaryPort.
Definition textual_port_p := is_also TextualPort.
Definition port_p := is_also Port.
(** boot.cpp:127-129 *)
Definition error_object_p := is_also Error.
Definition read_error_p := is (Class ReadError).
Definition file_error_p := is (Class FileError).
(** boot.cpp:85 box?, 376 identifier? *)
Definition box_p := is (Class Box).
Definition identifier_p := is_also Identifier.
(** r7rs.ss:173 and 178, boolean=? and symbol=? are the procedure eqv? of boot.cpp:116, which looks at
    its first two arguments; [eqv] stands for the comparison of C27.  No argument or one is undefined. *)
Definition eqv_procedure (eqv : N -> N -> bool) (xs : list N) : option bool :=
  match xs with x :: y :: _ => Some (eqv x y) | _ => None end.
