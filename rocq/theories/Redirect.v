(** Model of the procedures that open, pass on and close ports and of the default ports of the reading and writing procedures:
    call-with-input-file, call-with-output-file, with-input-from-file, with-output-to-file, current-input-port,
    current-output-port (library/r4rs.ss:304-377), call-with-port, close-port (library/r7rs.ss:228-243), with make-parameter and
    dynamic-bind of library/srfi-39.ss:34-72, and dynamic-wind and windup! of library/meevax.ss:52-90.

    A program is a tree of uses of these procedures; what the primitives for reading and writing do with the bytes is the
    subject of C71, here they are only recorded.  Simplifications: the values a program passes around are integers; the
    world outside (what the files hold, which can be opened) is given by functions of all that happened before; a
    continuation is used to leave its extent only, and is named by the number of the captures between it and its use; guard is
    an escape to its continuation; the dynamic extents hold those of dynamic-bind only. *)
From Coq Require Import ZArith List Bool.
Import ListNotations.

(** The one object a procedure returns: an ordinary one, or that in which values puts more or less than one (library/r5rs.ss:84-90) *)
Inductive object := One (v : Z) | Tagged (vs : list Z).
(** values, library/r5rs.ss:86-90 *)
Definition values (vs : list Z) : object := match vs with [v] => One v | _ => Tagged vs end.
(** the arguments call-with-values passes on, library/r5rs.ss:92-99 *)
Definition spread (o : object) : list Z := match o with One v => [v] | Tagged vs => vs end.

(** What happened to the ports, the last first *)
Inductive event :=
| Opened (p : nat) (out : bool) (path : nat)
| Closed (p : nat)
| Wrote (p : nat) (c : Z)
| Got (p : nat) (c : Z).
(** error objects by what file-error? says of them, boot.cpp:129 *)
Inductive error := Plain_error | File_error | Raised (n : nat).
(** The files and what is read from them, as functions of the history: whether there is a file of the name
    (std::filesystem::canonical), whether it can be read or written, the next character of a port *)
Record files := { found : list event -> nat -> bool; readable : list event -> nat -> bool; writable : list event -> nat -> bool; next : list event -> nat -> Z }.

(** A program: uses of the procedures of the library *)
Inductive prog :=
| Finish (vs : list Z)                                        (* (values v ...) *)
| Leave (n : nat) (vs : list Z)                               (* calls the continuation of the n-th call/cc around, with (values v ...) *)
| Raise (e : error)                                           (* (raise e) *)
| Write_char (c : Z) (port : option nat) (k : prog)           (* (write-char c) or (write-char c port) *)
| Read_char (port : option nat) (k : Z -> prog)               (* (read-char) or (read-char port) *)
| Current (out : bool) (k : nat -> prog)                      (* (current-output-port) or (current-input-port) *)
| Assign (out : bool) (port : nat) (k : prog)                 (* (current-output-port port), an assignment of SRFI 39 *)
| Open (out : bool) (path : nat) (k : nat -> prog)            (* (open-output-file path) or (open-input-file path) *)
| Close (port : nat) (k : prog)                               (* (close-port port) *)
| Ask_open (port : nat) (k : bool -> prog)                    (* (output-port-open? port) or (input-port-open? port) *)
| Parameterize (out : bool) (port : nat) (body : prog) (k : list Z -> prog)   (* (parameterize ((current-output-port port)) body) *)
| With_file (out : bool) (path : nat) (body : prog) (k : list Z -> prog)      (* with-output-to-file or with-input-from-file *)
| Call_with_file (out : bool) (path : nat) (body : nat -> prog) (k : list Z -> prog)   (* call-with-output-file or call-with-input-file *)
| Call_with_port (port : nat) (body : nat -> prog) (k : list Z -> prog)
| Capture (body : prog) (k : list Z -> prog)                  (* (call/cc (lambda (c) body)) *)
| Guard (body : prog) (handler : error -> prog) (k : list Z -> prog).         (* (guard (e (else handler)) body) *)

(** Bindings: current-dynamic-bindings, srfi-39.ss:34-35; a binding is a pair of a parameter and a value, here the place of its cdr *)
Definition bindings := list (bool * nat).
(** An element of current-dynamic-extents: what its before and its after thunk install, srfi-39.ss:65-67, and the pair it is kept in, for eq? *)
Record extent := { mark : nat; inner : bindings; outer : bindings }.
Record state := {
  log : list event;            (* what was done to ports *)
  live : list bool;            (* is_open of every port; 0 and 1 are the standard ports *)
  cells : list nat;            (* the values of all bindings; 0 and 1 are the defaults of the two parameters *)
  bound : bindings;            (* a[1] *)
  extents : list extent;       (* a[0] *)
  pairs : nat }.               (* the number of pairs made by dynamic-wind *)
(** the state in which a program starts, r4rs.ss:318-322 *)
Definition initial : state := {| log := []; live := [true; true]; cells := [0; 1]; bound := []; extents := []; pairs := 0 |}.

Inductive outcome := Done (o : object) | Jump (n : nat) (o : object) | Fail (e : error).

Definition record (e : event) (s : state) : state := {| log := e :: log s; live := live s; cells := cells s; bound := bound s; extents := extents s; pairs := pairs s |}.
(** install 1 and install 0, srfi-39.ss:37-38 and meevax.ss:55-56 *)
Definition install_bindings (b : bindings) (s : state) : state := {| log := log s; live := live s; cells := cells s; bound := b; extents := extents s; pairs := pairs s |}.
Definition install_extents (x : list extent) (s : state) : state := {| log := log s; live := live s; cells := cells s; bound := bound s; extents := x; pairs := pairs s |}.

Fixpoint update {A} (n : nat) (x : A) (l : list A) : list A :=
  match l, n with [] , _ => [] | _ :: l, O => x :: l | y :: l, S n => y :: update n x l end.
Definition same (a b : bool) : bool := if a then b else negb b.
(** the cell of a parameter, srfi-39.ss:51-55: the first binding of it or its default *)
Fixpoint cell (b : bindings) (out : bool) : nat :=
  match b with [] => if out then 1 else 0 | (p, c) :: b => if same p out then c else cell b out end.
(** (current-output-port), srfi-39.ss:46-47 *)
Definition current (out : bool) (s : state) : nat := nth (cell (bound s) out) (cells s) 0.
(** (current-output-port port), srfi-39.ss:48-49 *)
Definition assign (out : bool) (p : nat) (s : state) : state :=
  {| log := log s; live := live s; cells := update (cell (bound s) out) p (cells s); bound := bound s; extents := extents s; pairs := pairs s |}.

(** what is done after a procedure has returned; a procedure that does not return passes through *)
Definition on_return (r : outcome * state) (f : object -> state -> outcome * state) : outcome * state := match r with (Done o, s) => f o s | _ => r end.

Section Run.
Variable fs : files.

(** The constructors of input_file_port (include/meevax/kernel/input_file_port.hpp:32-37: canonical throws, the state of the
    ifstream is not looked at) and of output_file_port (output_file_port.hpp:32-35: the state of the ofstream is not looked at);
    an exception of the system becomes an error object of no special kind (dynamic_environment.cpp:485-496) *)
Definition opening (h : list event) (out : bool) (path : nat) : error + bool :=
  if out then inr (writable fs h path) else if found fs h path then inr (readable fs h path) else inl Plain_error.
Definition open_file (out : bool) (path : nat) (s : state) : (error + nat) * state :=
  match opening (log s) out path with
  | inl e => (inl e, s)
  | inr l => let p := length (live s) in
    (inr p, {| log := Opened p out path :: log s; live := live s ++ [l]; cells := cells s; bound := bound s; extents := extents s; pairs := pairs s |})
  end.
(** close, boot.cpp:321: closing a standard port does nothing (standard_output_port.cpp:21-22, standard_input_port.cpp:26-27); close-port, r7rs.ss:240-243, on a port *)
Definition close (p : nat) (s : state) : state :=
  {| log := Closed p :: log s; live := if p <? 2 then live s else update p false (live s); cells := cells s; bound := bound s; extents := extents s; pairs := pairs s |}.

(** eq? of two lists of extents *)
Definition eq_extents (a b : list extent) : bool :=
  match a, b with [], [] => true | x :: _, y :: _ => mark x =? mark y | _, _ => false end.
(** windup!, meevax.ss:69-83 *)
Fixpoint windup (fuel : nat) (from to : list extent) (s : state) : state :=
  match fuel with
  | O => s
  | S fuel =>
    let s := install_extents from s in
    install_extents to
      (if eq_extents from to then s
       else match from, to with
       | [], [] => s
       | [], y :: to' => install_bindings (inner y) (windup fuel from to' s)
       | x :: from', [] => windup fuel from' to (install_bindings (outer x) s)
       | x :: from', y :: to' => install_bindings (inner y) (windup fuel from' to' (install_bindings (outer x) s))
       end)
  end.
Definition wind_to (to : list extent) (s : state) : state := windup (S (length (extents s) + length to)) (extents s) to s.

(** parameterize of one parameter: dynamic-bind, srfi-39.ss:63-72, with dynamic-wind, meevax.ss:58-66; both parameters have
    no converter.  A body that does not return leaves the extents to windup!. *)
Definition dynamic_bind (out : bool) (p : nat) (body : state -> outcome * state) (s : state) : outcome * state :=
  let outer_bindings := bound s in
  let inner_bindings := (out, length (cells s)) :: outer_bindings in
  let s1 := {| log := log s; live := live s; cells := cells s ++ [p]; bound := inner_bindings;
               extents := {| mark := pairs s; inner := inner_bindings; outer := outer_bindings |} :: extents s; pairs := S (pairs s) |} in
  on_return (body s1) (fun o s2 => (Done o, install_bindings outer_bindings (install_extents (tl (extents s2)) s2))).
(** with-input-from-file and with-output-to-file, r4rs.ss:324-334 *)
Definition with_file (out : bool) (path : nat) (thunk : state -> outcome * state) (s : state) : outcome * state :=
  match open_file out path s with
  | (inl e, s) => (Fail e, s)
  | (inr p, s) => dynamic_bind out p (fun s => on_return (thunk s) (fun o s => (Done o, close (current out s) s))) s
  end.
(** call-with-input-file and call-with-output-file, r4rs.ss:304-316 *)
Definition call_with_file (out : bool) (path : nat) (f : nat -> state -> outcome * state) (s : state) : outcome * state :=
  match open_file out path s with
  | (inl e, s) => (Fail e, s)
  | (inr p, s) => on_return (f p s) (fun o s => (Done o, close p s))
  end.
(** call-with-port, r7rs.ss:228-231 *)
Definition call_with_port (p : nat) (f : nat -> state -> outcome * state) (s : state) : outcome * state :=
  on_return (f p s) (fun o s => (Done (values (spread o)), close p s)).
(** the port a procedure for reading or writing works on, r4rs.ss:340-364 *)
Definition chosen (out : bool) (port : option nat) (s : state) : nat := match port with Some p => p | None => current out s end.

(** A program run on the library *)
Fixpoint run (p : prog) (s : state) : outcome * state :=
  match p with
  | Finish vs => (Done (values vs), s)
  | Leave n vs => (Jump n (values vs), s)
  | Raise e => (Fail e, s)
  | Write_char c port k => run k (record (Wrote (chosen true port s) c) s)
  | Read_char port k => let q := chosen false port s in let c := next fs (log s) q in run (k c) (record (Got q c) s)
  | Current out k => run (k (current out s)) s
  | Assign out port k => run k (assign out port s)
  | Open out path k => match open_file out path s with (inl e, s) => (Fail e, s) | (inr q, s) => run (k q) s end
  | Close port k => run k (close port s)
  | Ask_open port k => run (k (nth port (live s) false)) s
  | Parameterize out port body k => on_return (dynamic_bind out port (run body) s) (fun o => run (k (spread o)))
  | With_file out path body k => on_return (with_file out path (run body) s) (fun o => run (k (spread o)))
  | Call_with_file out path body k => on_return (call_with_file out path (fun q => run (body q)) s) (fun o => run (k (spread o)))
  | Call_with_port port body k => on_return (call_with_port port (fun q => run (body q)) s) (fun o => run (k (spread o)))
  | Capture body k =>
    match run body s with
    | (Done o, s') => run (k (spread o)) s'
    | (Jump O o, s') => run (k (spread o)) (wind_to (extents s) s')
    | (Jump (S n) o, s') => (Jump n o, s')
    | (Fail e, s') => (Fail e, s')
    end
  | Guard body handler k =>
    match run body s with
    | (Done o, s') => run (k (spread o)) s'
    | (Fail e, s') => on_return (run (handler e) (wind_to (extents s) s')) (fun o => run (k (spread o)))
    | (Jump n o, s') => (Jump n o, s')
    end
  end.
End Run.
