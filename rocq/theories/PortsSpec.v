(** What R7RS 6.13 says about the procedures of Ports.v: an input port is a sequence of
    bytes and the number of those already taken, an output port the sequence of what has
    been written.  [None]: R7RS prescribes nothing (the argument is in error, the port is
    closed, or a file is used by two ports at once). *)
From Coq Require Import ZArith List Bool Lia.
From Verif Require Import Number TextPortProofs Ports.
Import ListNotations.
Open Scope Z_scope.

Inductive place := Memory | Disk (n : nat).
Inductive thing :=
| Vector (bs : list Z)
| Source (at_ : place) (all : list Z) (taken : nat) (opened : bool)
| Sink (at_ : place) (textual : bool) (written : list Z) (opened : bool).
Record state := State { things : list thing; disk : nat -> option (list Z) }.

Definition integer (x : num) : option Z := match x with Small z | Large z => Some z | Ratio _ => None end.
Definition byte (z : Z) : bool := (0 <=? z) && (z <=? 255).
(** UTF-8 of a sequence of characters *)
Definition encoded (cs : list Z) : list Z := flat_map rfc3629 cs.
Definition contents (textual : bool) (written : list Z) : list Z := if textual then encoded written else written.

Definition thing_at (s : state) (a : nat) : option thing := nth_error (things s) a.
Definition change (s : state) (a : nat) (t : thing) : state :=
  State (firstn a (things s) ++ t :: skipn (S a) (things s)) (disk s).
Definition add (s : state) (t : thing) : state * reply := (State (things s ++ [t]) (disk s), Reference (length (things s))).
Definition store_file (s : state) (n : nat) (bs : list Z) : state :=
  State (things s) (fun m => if Nat.eqb m n then Some bs else disk s m).
(** no open port is on the file [n] *)
Definition on_file (n : nat) (t : thing) : bool :=
  match t with Source (Disk m) _ _ true | Sink (Disk m) _ _ true => Nat.eqb m n | _ => false end.
Definition unused (s : state) (n : nat) : bool := negb (existsb (on_file n) (things s)).
(** the file has what was written *)
Definition save (s : state) (at_ : place) (textual : bool) (written : list Z) : state :=
  match at_ with Memory => s | Disk n => store_file s n (contents textual written) end.
(** the optional arguments start and end of a sequence of length [n] *)
Definition range (start stop : option num) (n : nat) : option (nat * nat) :=
  match start, stop with
  | None, Some _ => None
  | _, _ =>
    match match start with None => Some 0 | Some k => integer k end,
          match stop with None => Some (Z.of_nat n) | Some k => integer k end with
    | Some s, Some e => if (0 <=? s) && (s <=? e) && (e <=? Z.of_nat n) then Some (Z.to_nat s, Z.to_nat e) else None
    | _, _ => None
    end
  end.

Definition prescribed (s : state) (op : operation) : option (state * reply) :=
  match op with
  | Bytevector bs => if forallb byte bs then Some (add s (Vector bs)) else None
  | Bytevector_set a k x =>
    match thing_at s a, integer k, integer x with
    | Some (Vector bs), Some k, Some x =>
      if (0 <=? k) && (k <? Z.of_nat (length bs)) && byte x
      then Some (change s a (Vector (firstn (Z.to_nat k) bs ++ x :: skipn (S (Z.to_nat k)) bs)), Unspecified) else None
    | _, _, _ => None
    end
  | Open_input_bytevector a =>
    match thing_at s a with Some (Vector bs) => Some (add s (Source Memory bs 0 true)) | _ => None end
  | Open_output_bytevector => Some (add s (Sink Memory false [] true))
  | Open_output_string => Some (add s (Sink Memory true [] true))
  | Get_output_bytevector p =>
    match thing_at s p with Some (Sink Memory false bs _) => Some (add s (Vector bs)) | _ => None end
  | Get_output_string p =>
    match thing_at s p with Some (Sink Memory true cs _) => Some (s, Characters cs) | _ => None end
  | Open_binary_input_file n =>
    if unused s n then match disk s n with Some bs => Some (add s (Source (Disk n) bs 0 true)) | None => None end else None
  | Open_binary_output_file n => if unused s n then Some (add (store_file s n []) (Sink (Disk n) false [] true)) else None
  | Open_output_file n => if unused s n then Some (add (store_file s n []) (Sink (Disk n) true [] true)) else None
  | Close_port p =>
    match thing_at s p with
    | Some (Source at_ bs k _) => Some (change s p (Source at_ bs k false), Unspecified)
    | Some (Sink at_ t w true) => Some (change (save s at_ t w) p (Sink at_ t w false), Unspecified)
    | Some (Sink at_ t w false) => Some (s, Unspecified)
    | _ => None
    end
  | Port_open p =>
    match thing_at s p with Some (Source _ _ _ o) | Some (Sink _ _ _ o) => Some (s, Boolean o) | _ => None end
  | Flush_port p =>
    match thing_at s p with Some (Sink at_ t w true) => Some (save s at_ t w, Unspecified) | _ => None end
  | Read_u8 p =>
    match thing_at s p with
    | Some (Source at_ bs k true) =>
      match nth_error bs k with
      | Some b => Some (change s p (Source at_ bs (S k) true), Integer b)
      | None => Some (s, Eof)
      end
    | _ => None
    end
  | Peek_u8 p =>
    match thing_at s p with
    | Some (Source _ bs k true) => Some (s, match nth_error bs k with Some b => Integer b | None => Eof end)
    | _ => None
    end
  | U8_ready p => match thing_at s p with Some (Source _ _ _ true) => Some (s, Boolean true) | _ => None end
  | Read_bytevector n p =>
    match thing_at s p, integer n with
    | Some (Source at_ bs k true), Some n =>
      if n <? 0 then None else
      match skipn k bs with
      | [] => if n =? 0 then None else Some (s, Eof)
      | rest => let got := firstn (Z.to_nat n) rest in
                Some (add (change s p (Source at_ bs (k + length got) true)) (Vector got))
      end
    | _, _ => None
    end
  | Read_bytevector_into a p start stop =>
    match thing_at s a, thing_at s p with
    | Some (Vector v), Some (Source at_ bs k true) =>
      match range start stop (length v) with
      | Some (i, j) =>
        match skipn k bs with
        | [] => if Nat.eqb i j then None else Some (s, Eof)
        | rest => let got := firstn (j - i) rest in
                  Some (change (change s p (Source at_ bs (k + length got) true)) a
                          (Vector (firstn i v ++ got ++ skipn (i + length got) v)),
                        Integer (Z.of_nat (length got)))
        end
      | None => None
      end
    | _, _ => None
    end
  | Write_u8 x p =>
    match thing_at s p, integer x with
    | Some (Sink at_ false w true), Some b =>
      if byte b then Some (change s p (Sink at_ false (w ++ [b]) true), Unspecified) else None
    | _, _ => None
    end
  | Write_bytevector a p start stop =>
    match thing_at s a, thing_at s p with
    | Some (Vector v), Some (Sink at_ false w true) =>
      match range start stop (length v) with
      | Some (i, j) => Some (change s p (Sink at_ false (w ++ firstn (j - i) (skipn i v)) true), Unspecified)
      | None => None
      end
    | _, _ => None
    end
  | Write_char c p =>
    match thing_at s p with
    | Some (Sink at_ true w true) => Some (change s p (Sink at_ true (w ++ [c]) true), Unspecified)
    | _ => None
    end
  | Write_string cs p start stop =>
    match thing_at s p, range start stop (length cs) with
    | Some (Sink at_ true w true), Some (i, j) =>
      Some (change s p (Sink at_ true (w ++ firstn (j - i) (skipn i cs)) true), Unspecified)
    | _, _ => None
    end
  end.

Fixpoint prescribed_history (s : state) (ops : list operation) : option (state * list reply) :=
  match ops with
  | [] => Some (s, [])
  | op :: ops =>
    match prescribed s op with
    | Some (s, r) => match prescribed_history s ops with Some (s, rs) => Some (s, r :: rs) | None => None end
    | None => None
    end
  end.

(** ** Where the program departs from R7RS *)
(** [n] bytes are asked of a port: a bytevector port gives the end-of-file object when it has some but fewer; a file
    port gives an empty bytevector at the end of the file *)
Definition request_departs (at_ : place) (rest : list Z) (n : Z) : Prop :=
  match at_ with
  | Memory => rest <> [] /\ Z.of_nat (length rest) < n
  | Disk _ => rest = []
  end.
Definition small (x : num) : Prop := match integer x with Some z => z < 2^64 | None => False end.
Definition small_opt (x : option num) : Prop := match x with Some x => small x | None => True end.
Definition character (c : Z) : Prop := 0 < c <= 0x10FFFF.
(** the operations on which it is not known to depart: sizes that a machine word can hold (the length of a bytevector
    is a 32 bit integer), characters other than NUL *)
Definition agrees (s : state) (op : operation) : Prop :=
  match op with
  | Bytevector_set a k _ => small k
  | Port_open p =>
    match thing_at s p with
    | Some (Source Memory _ _ o) | Some (Sink Memory _ _ o) => o = true
    | _ => True
    end
  | U8_ready p => match thing_at s p with Some (Source _ bs k _) => (k < length bs)%nat | _ => True end
  | Peek_u8 p => match thing_at s p with Some (Source (Disk _) bs k _) => (k < length bs)%nat | _ => True end
  | Read_bytevector n p =>
    small n /\
    match thing_at s p, integer n with
    | Some (Source at_ bs k _), Some n => ~ request_departs at_ (skipn k bs) n
    | _, _ => True
    end
  | Read_bytevector_into a p start stop =>
    match thing_at s a, thing_at s p with
    | Some (Vector v), Some (Source at_ bs k _) =>
      Z.of_nat (length v) < 2^31 /\
      match range start stop (length v) with
      | Some (i, j) => ~ request_departs at_ (skipn k bs) (Z.of_nat (j - i))
      | None => True
      end
    | _, _ => True
    end
  | Write_bytevector a p start stop => small_opt start /\ small_opt stop
  | Write_string cs p start stop => small_opt start /\ small_opt stop /\ Forall character cs
  | Write_char c p => character c
  | _ => True
  end.
(** the value of read-bytevector! is not the number of bytes *)
Definition same_reply (op : operation) (r r' : reply) : Prop :=
  match op, r' with
  | Read_bytevector_into _ _ _ _, Integer _ => r = Unspecified
  | _, _ => r = r'
  end.
Fixpoint all_agree (s : state) (ops : list operation) : Prop :=
  match ops with
  | [] => True
  | op :: ops => agrees s op /\ match prescribed s op with Some (s, _) => all_agree s ops | None => True end
  end.
Inductive same_replies : list operation -> list reply -> list reply -> Prop :=
| same_nil : same_replies [] [] []
| same_cons op ops r r' rs rs' : same_reply op r r' -> same_replies ops rs rs' -> same_replies (op :: ops) (r :: rs) (r' :: rs').

(** nothing is open; the files are [d] *)
Definition initial_state (d : nat -> option (list Z)) : state := State [] d.
