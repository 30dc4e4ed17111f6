(** Model of get-environment-variable and get-environment-variables (boot.cpp:381-382).
    A string is the list of the bytes of its UTF-8 encoding; the conversions between strings and
    bytes (string.cpp) are left out.  [environ] is the list of the byte strings that the pointers of
    the C variable of this name lead to. *)
From Coq Require Import List Bool Arith.
Import ListNotations.

Definition bytes := list nat.

(** boot.cpp:381: what a C function sees of the string [s.utf8().c_str()], the bytes before the
    first zero byte *)
Fixpoint c_str (s : bytes) : bytes :=
  match s with
  | [] => []
  | b :: s => if Nat.eqb b 0 then [] else b :: c_str s
  end.

(** std::getenv, called at boot.cpp:381.  The C library is not in /repo: this follows glibc, which
    answers NULL for the empty name and otherwise takes the first entry that begins with the name
    and an equals sign (61). *)
Fixpoint after_name (name entry : bytes) : option bytes :=
  match name, entry with
  | [], b :: value => if Nat.eqb b 61 then Some value else None
  | [], [] => None
  | x :: name, y :: entry => if Nat.eqb x y then after_name name entry else None
  | _ :: _, [] => None
  end.
Fixpoint search (environ : list bytes) (name : bytes) : option bytes :=
  match environ with
  | [] => None
  | entry :: environ =>
      match after_name name entry with
      | Some value => Some value
      | None => search environ name
      end
  end.
Definition getenv (environ : list bytes) (name : bytes) : option bytes :=
  match name with [] => None | _ => search environ name end.

(** boot.cpp:381; [None] is #f *)
Definition get_environment_variable (environ : list bytes) (name : bytes) : option bytes :=
  getenv environ (c_str name).

(** boot.cpp:382: find_first_of("=") and the two strings made from its position *)
Fixpoint split_entry (entry : bytes) : option (bytes * bytes) :=
  match entry with
  | [] => None
  | b :: entry =>
      if Nat.eqb b 61 then Some ([], entry)
      else match split_entry entry with
           | Some (name, value) => Some (b :: name, value)
           | None => None
           end
  end.
(** boot.cpp:382: the loop; alist_cons (list.cpp:416-419) puts each variable in front of the earlier ones *)
Fixpoint variables_loop (environ : list bytes) (alist : list (bytes * bytes)) : list (bytes * bytes) :=
  match environ with
  | [] => alist
  | entry :: environ =>
      match split_entry entry with
      | Some nv => variables_loop environ (nv :: alist)
      | None => variables_loop environ alist
      end
  end.
Definition get_environment_variables (environ : list bytes) : list (bytes * bytes) :=
  variables_loop environ [].
