(** Model of display, library/r7rs.ss:556-561 and library/r4rs.ss:370-377, on the data of Writer.v: the bytes
    that are put to the port (Ports.v says what becomes of them).  The port is left out, so are the
    arguments start and end of write-string, which display passes on (C71). *)
From Coq Require Import Ascii String ZArith List Bool.
From Verif Require Import Number TextPort Writer.
Import ListNotations.
Open Scope Z_scope.

(** display, r7rs.ss:556-561; write-char and write-string, r7rs.ss:316-327, textual_output_port.cpp:26-34;
    write, textual_output_port.cpp:36-39 *)
Definition display (inexact_text : nat -> list Z) (d : datum) : option (list Z) :=
  match d with
  | Chr c => Some (utf8 c)
  | Str cs => Some (string_utf8 cs)
  | _ => write inexact_text d
  end.
