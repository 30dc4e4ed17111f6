(** What R7RS 6.13.1 asks of the default ports and of the procedures that open a port for a procedure: the default ports of a
    program are those of its dynamic extent, so they are given here to the program as arguments, and there is nothing to restore. *)
From Coq Require Import ZArith List Bool.
From Verif Require Import Redirect.
Import ListNotations.

(** The ports: what happened to them and which are open *)
Record ports := { history : list event; status : list bool }.
Definition note (e : event) (w : ports) : ports := {| history := e :: history w; status := status w |}.
(** Closing a port; the standard ports stay open *)
Definition shut (p : nat) (w : ports) : ports :=
  {| history := Closed p :: history w; status := if p <? 2 then status w else map (fun i => if i =? p then false else nth i (status w) false) (seq 0 (length (status w))) |}.
Inductive result := Returned (vs : list Z) | Left_by (n : nat) (vs : list Z) | Failed (e : error).
(** The default ports, with one of them replaced *)
Definition redirect (defaults : bool -> nat) (out : bool) (p : nat) : bool -> nat := fun b => if Bool.eqb b out then p else defaults b.

(** what is done after a body has returned *)
Definition after (r : result * ports) (f : list Z -> ports -> result * ports) : result * ports := match r with (Returned vs, w) => f vs w | _ => r end.

Section Does.
(** what the files hold, and what opening a file does: an error or a port that is open or not *)
Variable next : list event -> nat -> Z.
Variable opens : list event -> bool -> nat -> error + bool.

Fixpoint does (p : prog) (defaults : bool -> nat) (w : ports) : result * ports :=
  let fresh out path (w : ports) (f : nat -> ports -> result * ports) :=
    match opens (history w) out path with
    | inl e => (Failed e, w)
    | inr l => let q := length (status w) in f q {| history := Opened q out path :: history w; status := status w ++ [l] |}
    end in
  match p with
  | Finish vs => (Returned vs, w)
  | Leave n vs => (Left_by n vs, w)
  | Raise e => (Failed e, w)
  | Write_char c port k => does k defaults (note (Wrote (match port with Some q => q | None => defaults true end) c) w)
  | Read_char port k =>
    let q := match port with Some q => q | None => defaults false end in
    does (k (next (history w) q)) defaults (note (Got q (next (history w) q)) w)
  | Current out k => does (k (defaults out)) defaults w
  | Assign _ _ k => does k defaults w      (* not in R7RS, see standard *)
  | Open out path k => fresh out path w (fun q => does (k q) defaults)
  | Close port k => does k defaults (shut port w)
  | Ask_open port k => does (k (nth port (status w) false)) defaults w
  | Parameterize out port body k => after (does body (redirect defaults out port) w) (fun vs => does (k vs) defaults)
  | With_file out path body k =>
    fresh out path w (fun q w => after (does body (redirect defaults out q) w) (fun vs w => does (k vs) defaults (shut q w)))
  | Call_with_file out path body k =>
    fresh out path w (fun q w => after (does (body q) defaults w) (fun vs w => does (k vs) defaults (shut q w)))
  | Call_with_port port body k => after (does (body port) defaults w) (fun vs w => does (k vs) defaults (shut port w))
  | Capture body k =>
    match does body defaults w with
    | (Returned vs, w) => does (k vs) defaults w
    | (Left_by O vs, w) => does (k vs) defaults w
    | (Left_by (S n) vs, w) => (Left_by n vs, w)
    | (Failed e, w) => (Failed e, w)
    end
  | Guard body handler k =>
    match does body defaults w with
    | (Returned vs, w) => does (k vs) defaults w
    | (Failed e, w) => after (does (handler e) defaults w) (fun vs => does (k vs) defaults)
    | (Left_by n vs, w) => (Left_by n vs, w)
    end
  end.
End Does.

(** What opening a file should do: an open port, or an error that satisfies file-error? *)
Definition usable (fs : files) (h : list event) (out : bool) (path : nat) : bool :=
  if out then writable fs h path else found fs h path && readable fs h path.
Definition should_open (fs : files) (h : list event) (out : bool) (path : nat) : error + bool :=
  if usable fs h out path then inr true else inl File_error.

(** Programs of R7RS: the parameters are not assigned *)
Inductive standard : prog -> Prop :=
| s_finish vs : standard (Finish vs)
| s_leave n vs : standard (Leave n vs)
| s_raise e : standard (Raise e)
| s_write c port k : standard k -> standard (Write_char c port k)
| s_read port k : (forall c, standard (k c)) -> standard (Read_char port k)
| s_current out k : (forall q, standard (k q)) -> standard (Current out k)
| s_open out path k : (forall q, standard (k q)) -> standard (Open out path k)
| s_close port k : standard k -> standard (Close port k)
| s_ask port k : (forall b, standard (k b)) -> standard (Ask_open port k)
| s_parameterize out port body k : standard body -> (forall vs, standard (k vs)) -> standard (Parameterize out port body k)
| s_with out path body k : standard body -> (forall vs, standard (k vs)) -> standard (With_file out path body k)
| s_call out path body k : (forall q, standard (body q)) -> (forall vs, standard (k vs)) -> standard (Call_with_file out path body k)
| s_port port body k : (forall q, standard (body q)) -> (forall vs, standard (k vs)) -> standard (Call_with_port port body k)
| s_capture body k : standard body -> (forall vs, standard (k vs)) -> standard (Capture body k)
| s_guard body handler k : standard body -> (forall e, standard (handler e)) -> (forall vs, standard (k vs)) -> standard (Guard body handler k).
