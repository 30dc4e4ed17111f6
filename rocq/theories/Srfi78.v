(** Model of library/srfi-78.ss:28-150, lightweight testing, with which the tests of the project are written.

    A program is a tree of what it does with the library; everything else that it does is left out, except for its own output.  [Attempt] is a part of a program from which
    errors and escapes come back, as with guard or call/cc; escapes back into a check are left out.  The operand of check that is the equality is a procedure that is known.
    Output is the list of what is written. *)
From Coq Require Import String List Bool Arith.
Import ListNotations.

Inductive mode := Off | Summary | Report_failed | Report_all.      (* 0, 1, 10 and 100, srfi-78.ss:36-43 *)
Definition mode_number (m : mode) : nat := match m with Off => 0 | Summary => 1 | Report_failed => 10 | Report_all => 100 end.

Section Srfi78.
Context {V : Type}.
(** what is not #f *)
Variable truth : V -> bool.

Inductive prog :=
| Return (v : V)
| Escape                                                                (* an error or an escape *)
| Set_mode (m : option mode) (k : prog)                                 (* (check-set-mode! m), None: some other argument *)
| Reset (k : prog)                                                      (* (check-reset!) *)
| Check (e : V) (thunk : prog) (equal : V -> V -> prog) (expected : prog) (k : prog)   (* (check thunk (=> equal) expected), e is the quoted expression *)
| Report (k : prog)                                                     (* (check-report) *)
| Passed (n : nat) (k : bool -> prog)                                   (* (check-passed? n) *)
| Print (v : V) (k : prog)
| Attempt (p : prog) (k : option V -> prog).

Inductive item := Newline | Write (v : V) | Text (s : string) | Number (n : nat).
(** check:mode, check:correct, check:failed, and the output *)
Record state := State { check_mode : mode; correct : nat; failed : list (V * V * V); output : list item }.
(** srfi-78.ss:34-63: when the library is loaded *)
Definition loaded : state := State Report_all 0 [] [].
Definition put (l : list item) (s : state) : state := State (check_mode s) (correct s) (failed s) (output s ++ l).
(** srfi-78.ss:55-56 and 58-61 *)
Definition add_correct (s : state) : state := State (check_mode s) (S (correct s)) (failed s) (output s).
Definition add_failed (e actual expected : V) (s : state) : state := State (check_mode s) (correct s) ((e, actual, expected) :: failed s) (output s).
(** srfi-78.ss:65-68, 70-72, 74-80 and 82-87 *)
Definition report_expression (e : V) : list item := [Newline; Write e; Text " => "].
Definition report_actual (v : V) : list item := [Write v; Text " ; "].
Definition report_correct (cases : nat) : list item :=
  [Text "correct"] ++ (if negb (cases =? 1) then [Text " ("; Number cases; Text " cases checked)"] else []) ++ [Newline].
Definition report_failed (expected : V) : list item := [Text "*** failed ***"; Newline; Text " ; expected result: "; Write expected; Newline].
(** check-report, srfi-78.ss:89-107 *)
Definition check_report (s : state) : state :=
  if 1 <=? mode_number (check_mode s) then
    put ([Newline; Text "; *** checks *** : "; Number (correct s); Text " correct, "; Number (length (failed s)); Text " failed."] ++
         match rev (failed s) with
         | (e, actual, expected) :: _ =>
           if mode_number (check_mode s) <=? 1 then [Newline]
           else [Text " First failed example:"; Newline] ++ report_expression e ++ report_actual actual ++ report_failed expected
         | [] => [Newline]
         end) s
  else s.
(** check-passed?, srfi-78.ss:109-111 *)
Definition check_passed (n : nat) (s : state) : bool := (length (failed s) =? 0) && (correct s =? n).

Fixpoint run (p : prog) (s : state) : option V * state :=
  match p with
  | Return v => (Some v, s)
  | Escape => (None, s)
  | Set_mode (Some m) k => run k (State m (correct s) (failed s) (output s))         (* srfi-78.ss:36-43 *)
  | Set_mode None k => (None, s)
  | Reset k => run k (State (check_mode s) 0 [] (output s))                          (* srfi-78.ss:51-53 *)
  | Check e thunk equal expected k =>                                                (* srfi-78.ss:144-150 and 113-142 *)
    if 1 <=? mode_number (check_mode s) then
      let '(r, s) := run expected s in
      match r with
      | None => (None, s)
      | Some x =>
        match check_mode s with
        | Off => run k s
        | Summary =>
          let '(r, s) := run thunk s in
          match r with
          | None => (None, s)
          | Some v =>
            let '(r, s) := run (equal v x) s in
            match r with
            | None => (None, s)
            | Some b => if truth b then run k (add_correct s) else run k (add_failed e v x s)
            end
          end
        | Report_failed =>
          let '(r, s) := run thunk s in
          match r with
          | None => (None, s)
          | Some v =>
            let '(r, s) := run (equal v x) s in
            match r with
            | None => (None, s)
            | Some b => if truth b then run k (add_correct s)
                        else run k (add_failed e v x (put (report_failed x) (put (report_actual v) (put (report_expression e) s))))
            end
          end
        | Report_all =>
          let '(r, s) := run thunk (put (report_expression e) s) in
          match r with
          | None => (None, s)
          | Some v =>
            let '(r, s) := run (equal v x) (put (report_actual v) s) in
            match r with
            | None => (None, s)
            | Some b => if truth b then run k (add_correct (put (report_correct 1) s)) else run k (add_failed e v x (put (report_failed x) s))
            end
          end
        end
      end
    else run k s
  | Report k => run k (check_report s)
  | Passed n k => run (k (check_passed n s)) s
  | Print v k => run k (put [Write v] s)
  | Attempt p k => let '(r, s) := run p s in run (k r) s
  end.
End Srfi78.
