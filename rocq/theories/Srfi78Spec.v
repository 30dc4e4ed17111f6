(** What SRFI 78 asks: which checks a program has completed, and what follows from them for check-passed? and check-report.  It says nothing about counters and lists of the library. *)
From Coq Require Import String List Bool Arith.
From Verif Require Import Srfi78.
Import ListNotations.

Section Spec.
Context {V : Type}.
Variable truth : V -> bool.
Notation prog := (prog (V := V)).

(** A completed check: its expression, the actual and the expected value, and the verdict *)
Record check := Completed { expression : V; actual : V; expected : V; verdict : bool }.
(** The history of a program, the first event first *)
Inductive event := Done_check (c : check) | Cleared.
Fixpoint since_from (cs : list check) (h : list event) : list check :=
  match h with [] => cs | Cleared :: h => since_from [] h | Done_check c :: h => since_from (cs ++ [c]) h end.
(** the checks completed since the last reset *)
Definition since (h : list event) : list check := since_from [] h.
Definition good (h : list event) : list check := filter verdict (since h).
Definition bad (h : list event) : list check := filter (fun c => negb (verdict c)) (since h).
(** check-passed? n: n checks since the last reset, each of them correct *)
Definition passed (n : nat) (h : list event) : Prop := length (since h) = n /\ forall c, In c (since h) -> verdict c = true.

(** p, in the mode m and after the history h, ends with the value o (None: it escapes) in the mode m' and with the history h' *)
Inductive happens : prog -> mode -> list event -> option V -> mode -> list event -> Prop :=
| H_return v m h : happens (Return v) m h (Some v) m h
| H_escape m h : happens Escape m h None m h
| H_mode m' k m h o m2 h2 : happens k m' h o m2 h2 -> happens (Set_mode (Some m') k) m h o m2 h2
| H_bad_mode k m h : happens (Set_mode None k) m h None m h
| H_reset k m h o m2 h2 : happens k m (h ++ [Cleared]) o m2 h2 -> happens (Reset k) m h o m2 h2
  (* in the mode off nothing of a check is evaluated *)
| H_off e t q x k h o m2 h2 : happens k Off h o m2 h2 -> happens (Check e t q x k) Off h o m2 h2
| H_expected_escapes e t q x k m h m1 h1 : m <> Off -> happens x m h None m1 h1 -> happens (Check e t q x k) m h None m1 h1
  (* the expected value is evaluated first, and may turn the mode off *)
| H_turned_off e t q x k m h vx h1 o m2 h2 : m <> Off -> happens x m h (Some vx) Off h1 -> happens k Off h1 o m2 h2 -> happens (Check e t q x k) m h o m2 h2
| H_thunk_escapes e t q x k m h vx m1 h1 m2 h2 : m <> Off -> happens x m h (Some vx) m1 h1 -> m1 <> Off -> happens t m1 h1 None m2 h2 -> happens (Check e t q x k) m h None m2 h2
| H_equal_escapes e t q x k m h vx m1 h1 v m2 h2 m3 h3 : m <> Off -> happens x m h (Some vx) m1 h1 -> m1 <> Off -> happens t m1 h1 (Some v) m2 h2 ->
    happens (q v vx) m2 h2 None m3 h3 -> happens (Check e t q x k) m h None m3 h3
| H_check e t q x k m h vx m1 h1 v m2 h2 b m3 h3 o m4 h4 : m <> Off -> happens x m h (Some vx) m1 h1 -> m1 <> Off -> happens t m1 h1 (Some v) m2 h2 ->
    happens (q v vx) m2 h2 (Some b) m3 h3 -> happens k m3 (h3 ++ [Done_check (Completed e v vx (truth b))]) o m4 h4 -> happens (Check e t q x k) m h o m4 h4
| H_report k m h o m2 h2 : happens k m h o m2 h2 -> happens (Report k) m h o m2 h2
| H_passed n k b m h o m2 h2 : (b = true <-> passed n h) -> happens (k b) m h o m2 h2 -> happens (Passed n k) m h o m2 h2
| H_print v k m h o m2 h2 : happens k m h o m2 h2 -> happens (Print v k) m h o m2 h2
| H_attempt p k m h o1 m1 h1 o m2 h2 : happens p m h o1 m1 h1 -> happens (k o1) m1 h1 o m2 h2 -> happens (Attempt p k) m h o m2 h2.

(** What check-report writes *)
Local Open Scope string_scope.
Definition summary (h : list event) : list (@item V) :=
  [Newline; Text "; *** checks *** : "; Number (length (good h)); Text " correct, "; Number (length (bad h)); Text " failed."].
Definition failure (c : check) : list (@item V) :=
  [Newline; Write (expression c); Text " => "; Write (actual c); Text " ; "; Text "*** failed ***"; Newline; Text " ; expected result: "; Write (expected c); Newline].
Inductive reports : mode -> list event -> list item -> Prop :=
| Reports_off h : reports Off h []
| Reports_good m h : m <> Off -> bad h = [] -> reports m h (summary h ++ [Newline])
| Reports_summary h : reports Summary h (summary h ++ [Newline])
| Reports_first m h c cs : m = Report_failed \/ m = Report_all -> bad h = c :: cs -> reports m h (summary h ++ [Text " First failed example:"; Newline] ++ failure c).
End Spec.
