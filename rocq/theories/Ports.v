(** Model of the ports a program opens: input_homogeneous_vector_port.hpp,
    output_homogeneous_vector_port.hpp, binary_input_file_port.cpp,
    binary_output_file_port.cpp, output_string_port.cpp, output_file_port.cpp, the
    procedures of boot.cpp:313-346 and boot.cpp:423-426 on them, and the procedures of
    library/r7rs.ss:233-341 built on those.  (Reading characters is in TextPort.v.)

    Objects are numbered; a path is a number.  Where we simplify: opening a file for
    output always succeeds; an std::ifstream has the contents the file has when it is
    opened; an std::ofstream keeps what is written until it is flushed or closed, and
    writing and flushing never fail; the bytevectors read-bytevector! and write-bytevector
    make for themselves, which no one else sees, are not numbered.  The port argument is always given (the default is a
    parameter object, see ParameterProofs.v). *)
From Coq Require Import ZArith List Bool Lia.
From Verif Require Import Number TextPort Sequence.
Import ListNotations.
Open Scope Z_scope.

(** istream::read: the sentry sets failbit on a stream that is not good; a short read
    sets eofbit and failbit.  The bytes read are gcount() many. *)
Definition i_read (n : Z) (s : istream) : list Z * istream :=
  if good s then
    let got := firstn (Z.to_nat n) (ahead s) in
    let s' := Stream (skipn (Z.to_nat n) (ahead s)) (rev got ++ behind s) (eofbit s) (failbit s) (badbit s) in
    if Z.of_nat (length got) <? n then (got, Stream (ahead s') (behind s') true true (badbit s))
    else (got, s')
  else ([], with_fail s).

(** an std::ofstream on the file [path]: where the next byte goes, and what is in the buffer *)
Record ofstream := Ofstream { path : nat; offset : nat; buffer : list Z; is_open : bool }.

Inductive object :=
| Bytes (values : list Z)                        (** u8vector, homogeneous_vector.hpp:28-37 *)
| Bytes_in (deque : list Z)                      (** input_u8vector_port, input_homogeneous_vector_port.hpp:29-36 *)
| Bytes_out (vector : list Z)                    (** output_u8vector_port, output_homogeneous_vector_port.hpp:26-31 *)
| File_in (s : istream) (is_open : bool)         (** binary_input_file_port, binary_input_file_port.hpp:27-36 *)
| File_out (s : ofstream)                        (** binary_output_file_port, binary_output_file_port.hpp:27-37 *)
| String_out (bytes : list Z)                    (** output_string_port, output_string_port.hpp *)
| Text_out (s : ofstream).                       (** output_file_port, output_file_port.hpp *)

(** what a procedure returns *)
Inductive reply := Integer (z : Z) | Eof | Boolean (b : bool) | Unspecified | Reference (a : nat) | Characters (cs : list Z).

Record world := World { objects : list object; files : nat -> option (list Z) }.

Definition find (w : world) (a : nat) : option object := nth_error (objects w) a.
Definition put (w : world) (a : nat) (o : object) : world := World (set_nth a o (objects w)) (files w).
(** make<T> *)
Definition new (w : world) (o : object) : nat * world := (length (objects w), World (objects w ++ [o]) (files w)).

(** writing [bs] at [off] of a file; a gap is filled with zeros *)
Definition write_at (old : list Z) (off : nat) (bs : list Z) : list Z :=
  firstn off (old ++ repeat 0 (off - length old)) ++ bs ++ skipn (off + length bs) old.
(** std::flush *)
Definition o_flush (w : world) (s : ofstream) : world * ofstream :=
  match buffer s with
  | [] => (w, s)
  | bs =>
    let old := match files w (path s) with Some c => c | None => [] end in
    (World (objects w) (fun p => if Nat.eqb p (path s) then Some (write_at old (offset s) bs) else files w p),
     Ofstream (path s) (offset s + length bs) [] (is_open s))
  end.
(** ofstream::close *)
Definition o_close (w : world) (s : ofstream) : world * ofstream :=
  if is_open s then let '(w, s) := o_flush w s in (w, Ofstream (path s) (offset s) (buffer s) false)
  else (w, s).
(** ofstream::write and operator <<; nothing is written to a closed file *)
Definition o_write (bs : list Z) (s : ofstream) : ofstream :=
  if is_open s then Ofstream (path s) (offset s) (buffer s ++ bs) (is_open s) else s.

(** ** Opening and closing *)
(** open-input-u8vector, boot.cpp:325; input_homogeneous_vector_port.hpp:33-35; open-input-bytevector, r7rs.ss:245 *)
Definition open_input_bytevector (w : world) (a : nat) : outcome (world * reply) :=
  match find w a with
  | Some (Bytes v) => let '(p, w) := new w (Bytes_in v) in Ok (w, Reference p)
  | _ => Raise
  end.
(** open-output-u8vector, boot.cpp:326; open-output-bytevector, r7rs.ss:247 *)
Definition open_output_bytevector (w : world) : outcome (world * reply) :=
  let '(p, w) := new w (Bytes_out []) in Ok (w, Reference p).
(** get-output-u8vector, boot.cpp:327; get-output-bytevector, r7rs.ss:249 *)
Definition get_output_bytevector (w : world) (p : nat) : outcome (world * reply) :=
  match find w p with
  | Some (Bytes_out v) => let '(a, w) := new w (Bytes v) in Ok (w, Reference a)
  | _ => Raise
  end.
(** open-output-string, boot.cpp:323 *)
Definition open_output_string (w : world) : outcome (world * reply) :=
  let '(p, w) := new w (String_out []) in Ok (w, Reference p).
(** get-output-string, boot.cpp:324, with the string constructor of string.cpp:25-35 *)
Definition get_output_string (w : world) (p : nat) : outcome (world * reply) :=
  match find w p with
  | Some (String_out bs) =>
    match make_string bs with A_string cs => Ok (w, Characters cs) | _ => Raise end
  | _ => Raise
  end.
(** open-binary-input-file, boot.cpp:319; std::filesystem::canonical throws for a path without a file,
    binary_input_file_port.hpp:33-36 *)
Definition open_binary_input_file (w : world) (n : nat) : outcome (world * reply) :=
  match files w n with
  | Some bs => let '(p, w) := new w (File_in (stream_of bs) true) in Ok (w, Reference p)
  | None => Raise
  end.
(** open-binary-output-file, boot.cpp:320, and open-output-file, boot.cpp:318: the file is created or truncated *)
Definition truncate (w : world) (n : nat) : world :=
  World (objects w) (fun p => if Nat.eqb p n then Some [] else files w p).
Definition open_binary_output_file (w : world) (n : nat) : outcome (world * reply) :=
  let '(p, w) := new (truncate w n) (File_out (Ofstream n 0 [] true)) in Ok (w, Reference p).
Definition open_output_file (w : world) (n : nat) : outcome (world * reply) :=
  let '(p, w) := new (truncate w n) (Text_out (Ofstream n 0 [] true)) in Ok (w, Reference p).

(** close, boot.cpp:321, is close-input-port and close-output-port, r4rs.ss:336-338, and what close-port calls,
    r7rs.ss:240-243; input_homogeneous_vector_port.hpp:37-38, output_homogeneous_vector_port.hpp:32-33,
    output_string_port.cpp:21-22 do nothing; binary_input_file_port.cpp:23-26, binary_output_file_port.cpp:21-24,
    output_file_port.cpp:20-23 close the stream.  Reading a closed std::ifstream finds no bytes. *)
Definition close_port (w : world) (p : nat) : outcome (world * reply) :=
  match find w p with
  | Some (Bytes _) => Ok (w, Unspecified)
  | Some (Bytes_in _) | Some (Bytes_out _) | Some (String_out _) => Ok (w, Unspecified)
  | Some (File_in s o) => Ok (put w p (File_in (Stream [] [] (eofbit s) (failbit s) (badbit s)) false), Unspecified)
  | Some (File_out s) => let '(w, s) := o_close w s in Ok (put w p (File_out s), Unspecified)
  | Some (Text_out s) => let '(w, s) := o_close w s in Ok (put w p (Text_out s), Unspecified)
  | None => Raise
  end.
(** open?, boot.cpp:313, is input-port-open? and output-port-open?, r7rs.ss:233-235; is_open:
    input_homogeneous_vector_port.hpp:74-77, output_homogeneous_vector_port.hpp:38-41, output_string_port.cpp:24-27,
    binary_input_file_port.cpp:28-31, binary_output_file_port.cpp:31-34, output_file_port.cpp:25-28 *)
Definition port_open (w : world) (p : nat) : outcome (world * reply) :=
  match find w p with
  | Some (Bytes_in _) | Some (Bytes_out _) | Some (String_out _) => Ok (w, Boolean true)
  | Some (File_in _ o) => Ok (w, Boolean o)
  | Some (File_out s) | Some (Text_out s) => Ok (w, Boolean (is_open s))
  | _ => Raise
  end.
(** flush, boot.cpp:330, is what flush-output-port calls, r7rs.ss:345-348; output_homogeneous_vector_port.hpp:35-36,
    binary_output_file_port.cpp:26-29, textual_output_port.cpp:21-24 *)
Definition flush_port (w : world) (p : nat) : outcome (world * reply) :=
  match find w p with
  | Some (Bytes_out _) | Some (String_out _) => Ok (w, Unspecified)
  | Some (File_out s) => let '(w, s) := o_flush w s in Ok (put w p (File_out s), Unspecified)
  | Some (Text_out s) => let '(w, s) := o_flush w s in Ok (put w p (Text_out s), Unspecified)
  | _ => Raise
  end.

(** ** Reading bytes *)
(** get-u8, boot.cpp:343; input_homogeneous_vector_port.hpp:40-52, binary_input_file_port.cpp:33-43;
    read-u8, r7rs.ss:277-280 *)
Definition read_u8 (w : world) (p : nat) : outcome (world * reply) :=
  match find w p with
  | Some (Bytes_in []) => Ok (w, Eof)
  | Some (Bytes_in (b :: d)) => Ok (put w p (Bytes_in d), Integer b)
  | Some (File_in s o) =>
    let '(bs, s) := i_read 1 s in
    let w := put w p (File_in s o) in
    if usable s then match bs with b :: _ => Ok (w, Integer b) | [] => Ok (w, Integer 0) end else Ok (w, Eof)
  | _ => Raise
  end.
(** peek-u8, boot.cpp:345; input_homogeneous_vector_port.hpp:79-89, binary_input_file_port.cpp:63-73;
    r7rs.ss:282-285 *)
Definition peek_u8 (w : world) (p : nat) : outcome (world * reply) :=
  match find w p with
  | Some (Bytes_in []) => Ok (w, Eof)
  | Some (Bytes_in (b :: _)) => Ok (w, Integer b)
  | Some (File_in s o) =>
    if usable s then let '(c, s) := i_peek s in Ok (put w p (File_in s o), Integer c) else Ok (w, Eof)
  | _ => Raise
  end.
(** get-u8-ready?, boot.cpp:344; input_homogeneous_vector_port.hpp:69-72, binary_input_file_port.cpp:58-61;
    u8-ready?, r7rs.ss:287-290 *)
Definition u8_ready (w : world) (p : nat) : outcome (world * reply) :=
  match find w p with
  | Some (Bytes_in d) => Ok (w, Boolean (match d with [] => false | _ => true end))
  | Some (File_in s _) => Ok (w, Boolean (usable s))
  | _ => Raise
  end.
(** get-u8vector, boot.cpp:346; input_homogeneous_vector_port.hpp:54-67, binary_input_file_port.cpp:45-56 *)
Definition get_bytes (w : world) (k : num) (p : nat) : outcome (world * option (list Z)) :=
  let! n := cast_size k in
  match find w p with
  | Some (Bytes_in d) =>
    if len d <? n then Ok (w, None)
    else Ok (put w p (Bytes_in (skipn (Z.to_nat n) d)), Some (firstn (Z.to_nat n) d))
  | Some (File_in s o) => let '(bs, s) := i_read n s in Ok (put w p (File_in s o), Some bs)
  | _ => Raise
  end.
(** read-bytevector, r7rs.ss:292-296 *)
Definition read_bytevector (w : world) (k : num) (p : nat) : outcome (world * reply) :=
  let! r := get_bytes w k p in
  match r with
  | (w, None) => Ok (w, Eof)
  | (w, Some bs) => let '(a, w) := new w (Bytes bs) in Ok (w, Reference a)
  end.
(** read-bytevector!, r7rs.ss:298-314: bytevector-copy! returns an unspecified value *)
Definition read_bytevector_into (w : world) (a p : nat) (start stop : option num) : outcome (world * reply) :=
  match find w a with
  | Some (Bytes v) =>
    let s := match start with Some s => s | None => Small 0 end in
    let e := match stop with Some e => e | None => seq_length v end in
    let! r := get_bytes w (n_sub e s) p in
    match r with
    | (w, None) => Ok (w, Eof)
    | (w, Some bs) =>
      let! h := vector_copy_into (fun o => if Nat.eqb o 0 then v else bs) 0%nat s 1%nat None None in
      Ok (put w a (Bytes (h 0%nat)), Unspecified)
    end
  | _ => Raise
  end.

(** ** Writing *)
(** exact_integer_cast<std::uint8_t>, number.hpp:339-358 and large_integer.hpp:69-84; a ratio goes through double *)
Definition cast_u8 (x : num) : outcome Z :=
  match x with
  | Small z => Ok (z mod 2^8)
  | Large z => Ok ((Z.abs z mod 2^64) mod 2^8)
  | Ratio q => match get_d q with
               | Some d => if (0 <=? d_trunc d) && (d_trunc d <? 2^8) then Ok (d_trunc d) else Crash
               | None => Crash
               end
  end.
(** put-u8, boot.cpp:425; output_homogeneous_vector_port.hpp:43-46, binary_output_file_port.cpp:36-39;
    write-u8, r7rs.ss:329-332 *)
Definition write_u8 (w : world) (x : num) (p : nat) : outcome (world * reply) :=
  let! b := cast_u8 x in
  match find w p with
  | Some (Bytes_out v) => Ok (put w p (Bytes_out (v ++ [b])), Unspecified)
  | Some (File_out s) => Ok (put w p (File_out (o_write [b] s)), Unspecified)
  | _ => Raise
  end.
(** put-u8vector, boot.cpp:426; output_homogeneous_vector_port.hpp:48-51, binary_output_file_port.cpp:41-47;
    write-bytevector, r7rs.ss:334-341, copies the range it is given before *)
Definition write_bytevector (w : world) (a p : nat) (start stop : option num) : outcome (world * reply) :=
  match find w a with
  | Some (Bytes v) =>
    let! bs := match start with None => Ok v | Some _ => seq_copy v start stop end in
    match find w p with
    | Some (Bytes_out u) => Ok (put w p (Bytes_out (u ++ bs)), Unspecified)
    | Some (File_out s) => Ok (put w p (File_out (o_write bs s)), Unspecified)
    | _ => Raise
    end
  | _ => Raise
  end.
(** put-char, put-string, boot.cpp:423-424; textual_output_port.cpp:26-34; write-char, write-string and newline,
    r7rs.ss:316-327 and r7rs.ss:342-343; the string is given by its characters *)
Definition put_characters (w : world) (cs : list Z) (p : nat) : outcome (world * reply) :=
  match find w p with
  | Some (String_out v) => Ok (put w p (String_out (v ++ string_utf8 cs)), Unspecified)
  | Some (Text_out s) => Ok (put w p (Text_out (o_write (string_utf8 cs) s)), Unspecified)
  | _ => Raise
  end.
Definition write_char (w : world) (c : Z) (p : nat) : outcome (world * reply) := put_characters w [c] p.
Definition write_string (w : world) (cs : list Z) (p : nat) (start stop : option num) : outcome (world * reply) :=
  let! cs := match start with None => Ok cs | Some _ => seq_copy cs start stop end in
  put_characters w cs p.

(** ** Bytevectors *)
(** u8vector, boot.cpp:405, and u8vector-set!, boot.cpp:408; the values are bytes *)
Definition bytevector (w : world) (bs : list Z) : outcome (world * reply) :=
  let '(a, w) := new w (Bytes bs) in Ok (w, Reference a).
Definition bytevector_set (w : world) (a : nat) (k x : num) : outcome (world * reply) :=
  match find w a with
  | Some (Bytes v) => let! v := h_set (Elem 8 false) v k x in Ok (put w a (Bytes v), Unspecified)
  | _ => Raise
  end.

(** ** Histories *)
Inductive operation :=
| Bytevector (bs : list Z) | Bytevector_set (a : nat) (k x : num)
| Open_input_bytevector (a : nat) | Open_output_bytevector | Get_output_bytevector (p : nat)
| Open_output_string | Get_output_string (p : nat)
| Open_binary_input_file (n : nat) | Open_binary_output_file (n : nat) | Open_output_file (n : nat)
| Close_port (p : nat) | Port_open (p : nat) | Flush_port (p : nat)
| Read_u8 (p : nat) | Peek_u8 (p : nat) | U8_ready (p : nat)
| Read_bytevector (k : num) (p : nat) | Read_bytevector_into (a p : nat) (start stop : option num)
| Write_u8 (x : num) (p : nat) | Write_bytevector (a p : nat) (start stop : option num)
| Write_char (c : Z) (p : nat) | Write_string (cs : list Z) (p : nat) (start stop : option num).

Definition step (w : world) (op : operation) : outcome (world * reply) :=
  match op with
  | Bytevector bs => bytevector w bs
  | Bytevector_set a k x => bytevector_set w a k x
  | Open_input_bytevector a => open_input_bytevector w a
  | Open_output_bytevector => open_output_bytevector w
  | Get_output_bytevector p => get_output_bytevector w p
  | Open_output_string => open_output_string w
  | Get_output_string p => get_output_string w p
  | Open_binary_input_file n => open_binary_input_file w n
  | Open_binary_output_file n => open_binary_output_file w n
  | Open_output_file n => open_output_file w n
  | Close_port p => close_port w p
  | Port_open p => port_open w p
  | Flush_port p => flush_port w p
  | Read_u8 p => read_u8 w p
  | Peek_u8 p => peek_u8 w p
  | U8_ready p => u8_ready w p
  | Read_bytevector k p => read_bytevector w k p
  | Read_bytevector_into a p start stop => read_bytevector_into w a p start stop
  | Write_u8 x p => write_u8 w x p
  | Write_bytevector a p start stop => write_bytevector w a p start stop
  | Write_char c p => write_char w c p
  | Write_string cs p start stop => write_string w cs p start stop
  end.
Fixpoint run (w : world) (ops : list operation) : outcome (world * list reply) :=
  match ops with
  | [] => Ok (w, [])
  | op :: ops => let! x := step w op in let! y := run (fst x) ops in Ok (fst y, snd x :: snd y)
  end.
