(** Model of error objects: src/kernel/error.cpp, the procedures of src/kernel/boot.cpp:125-129, error (library/srfi-23.ss:6-7),
    error-object-message and error-object-irritants (library/r7rs.ss:224-226), the catch clauses of execute
    (src/kernel/dynamic_environment.cpp:461-495) and some of the places that signal errors.

    Simplifications: objects are trees; strings are those of Coq; how an object is written is an argument ([shown]); the colours of a report are
    left out; the cache of what() (error.hpp:27) is left out, as nothing modelled here alters an error object. *)
From Coq Require Import String List Bool.
Import ListNotations.

(** error, file_error and read_error, error.hpp:24-69 *)
Inductive kind := Plain | File | Read.
Inductive value :=
| Null
| Immediate (n : nat)                            (* a boolean, fixnum, character or flonum: in the pointer itself, nan_boxing_pointer.hpp:65-79 *)
| Text (s : string)                              (* a string *)
| Pair (a d : value)
| Error (k : kind) (message irritants : value)   (* derives from pair, error.hpp:24 *)
| Other (n : nat).                               (* another object on the heap *)
Fixpoint list_value (xs : list value) : value := match xs with [] => Null | x :: xs => Pair x (list_value xs) end.

(** error-object, boot.cpp:126: the car and the cdr of the arguments; without arguments they are not defined *)
Definition error_object (xs : list value) : option value := match xs with [] => None | m :: is => Some (Error Plain m (list_value is)) end.
(** error-object?, read-error? and file-error?, boot.cpp:127-129: dynamic_cast and typeid, object.hpp:144-154 *)
Definition error_objectp (x : value) : bool := match x with Error _ _ _ => true | _ => false end.
Definition read_errorp (x : value) : bool := match x with Error Read _ _ => true | _ => false end.
Definition file_errorp (x : value) : bool := match x with Error File _ _ => true | _ => false end.
(** pair?, boot.cpp:270: the typeid is that of pair itself *)
Definition pairp (x : value) : bool := match x with Pair _ _ => true | _ => false end.
(** error-object-message and error-object-irritants are car and cdr, r7rs.ss:224-226; pair.hpp:76-77 through object.hpp:117-120, not defined for others *)
Definition message_of (x : value) : option value := match x with Pair a _ => Some a | Error _ m _ => Some m | _ => None end.
Definition irritants_of (x : value) : option value := match x with Pair _ d => Some d | Error _ _ i => Some i | _ => None end.

(** What is thrown in C++: an object (by throw, boot.cpp:125), an error or one of its kinds, another std::exception with its what() *)
Inductive exception := Thrown (x : value) | Raised (k : kind) (message irritants : value) | System (what : string).
(** dynamic_environment.cpp:461-495, with an exception handler: either the handler is called with an object, or an exception leaves execute *)
Inductive caught := Handler (x : value) | Leaves (e : exception).
Definition catch (e : exception) : caught :=
  match e with
  | Thrown (Error k m i) => Leaves (Raised k m i)                                     (* 463-466, error.cpp:40-43, 94-97, 104-107 *)
  | Thrown x => Leaves (Raised Plain (Text "uncaught exception") x)                   (* 470 *)
  | Raised k m i => Handler (Error k m i)                                             (* 477, error.cpp:30-33, 89-92, 99-102 *)
  | System s => Handler (Error Plain (Text s) Null)                                   (* 487-489 *)
  end.
(** error, srfi-23.ss:6-7, when there is no handler: raise throws the object (srfi-34.ss:46-56) *)
Definition error_uncaught (xs : list value) : option caught := option_map (fun x => catch (Thrown x)) (error_object xs).

(** operator bool of an object: a pointer to the heap, nan_boxing_pointer.hpp:124-127 *)
Definition truthy (x : value) : bool := match x with Null | Immediate _ => false | _ => true end.
(** what(), error.cpp:50-75: a text, or the end of the process *)
Inductive report := Says (s : string) | Exits.
Definition what (shown : value -> string) (m i : value) : report :=
  match m with
  | Text s => Says (if truthy i then s ++ ": " ++ shown i else s)
  | _ => Exits                                                                        (* object.hpp:123-130, error.cpp:70-74 *)
  end.
(** operator <<, error.cpp:77-87 *)
Definition written (shown : value -> string) (m i : value) : string :=
  "#,(error " ++ shown m ++ (match i with Null => "" | _ => " " ++ shown i end) ++ ")".

(** ** Places that signal errors *)
Inductive place :=
| Not_applicable (callee : value)             (* dynamic_environment.cpp:247 and 300 *)
| Arguments (name : string) (xs : list value) (* the arity errors of boot.cpp, the arguments are the irritants, e.g. 365, 394 *)
| Delete_file (path : string)                 (* boot.cpp:133 *)
| Open_file (path : string)                   (* environment.cpp:198-199 *)
| Not_exact_integer (x : value)               (* number.hpp:357 *)
| Unknown_discriminator (c : value)           (* textual_input_port.cpp:547 *)
| Label (s : string).                         (* textual_input_port.cpp:334-335 *)
Definition signalled (p : place) : exception :=
  match p with
  | Not_applicable x => Raised Plain (Text "not applicable") x
  | Arguments name xs => Raised Plain (Text name) (list_value xs)
  | Delete_file s => Raised File (Text "failed to remove file") (Text s)
  | Open_file s => Raised File (Text "failed to open file") (Text s)
  | Not_exact_integer x => Raised Plain (Text "not an exact integer") x
  | Unknown_discriminator c => Raised Read (Text "unknown discriminator") c
  | Label s => Raised Read (Text "it is an error to attempt a forward reference") (Text s)
  end.
