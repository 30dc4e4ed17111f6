(** C120: SRFI 78 tells which checks were correct: check-passed? and check-report speak about the checks completed since the last reset. *)
From Coq Require Import String List Bool Arith.
From Verif Require Import Srfi78 Srfi78Spec Srfi78Proofs.
Import ListNotations.
Local Open Scope string_scope.
Local Open Scope list_scope.

(** Whatever a program does after the library is loaded, with checks in checks, resets, changes of the mode, errors and escapes, happens as SRFI 78 says;
    in particular check-passed? answers #t if and only if as many checks as asked were completed since the last reset and all were correct ([H_passed]),
    a check that does not complete does not count, and in the mode off nothing of a check is evaluated. *)
Theorem C120_history : forall V (truth : V -> bool) p o s, run truth p loaded = (o, s) -> exists h, happens truth p Report_all [] o (check_mode s) h.
Proof. intros V truth p o s R. destruct (run_ok truth p loaded [] o s agrees_loaded R) as (h & H & _). exists h. exact H. Qed.
(** and this determines what happens *)
Theorem C120_once : forall V (truth : V -> bool) p m h o m1 h1 o' m1' h1', happens truth p m h o m1 h1 -> happens truth p m h o' m1' h1' -> o = o' /\ m1 = m1' /\ h1 = h1'.
Proof. intros. eapply happens_once; eassumption. Qed.
(** check-report after any program writes the number of correct and of failed checks since the last reset, and the first one that failed *)
Theorem C120_report : forall V (truth : V -> bool) p o s, run truth p loaded = (o, s) -> exists h l s', happens truth p Report_all [] o (check_mode s) h /\
  reports (check_mode s) h l /\ (forall k, run truth (Report k) s = run truth k s') /\ output s' = output s ++ l.
Proof.
  intros V truth p o s R. destruct (run_ok truth p loaded [] o s agrees_loaded R) as (h & H & A). destruct (report_ok s h A) as (l & P & E).
  exists h, l, (check_report s). split; [exact H|]. split; [exact P|]. split; [reflexivity|]. rewrite E. reflexivity.
Qed.
(** What a check writes itself *)
Definition shown {V} (m : mode) (c : check (V := V)) : list item :=
  match m, verdict c with
  | Off, _ | Summary, _ | Report_failed, true => []
  | Report_failed, false | Report_all, false => failure c
  | Report_all, true => [Newline; Write (expression c); Text " => "; Write (actual c); Text " ; "; Text "correct"; Newline]
  end.
Theorem C120_shown : forall V (truth : V -> bool) e v b x s, exists s', (forall k, run truth (Check e (Return v) (fun _ _ => Return b) (Return x) k) s = run truth k s') /\
  output s' = output s ++ shown (check_mode s) (Completed e v x (truth b)).
Proof.
  intros V truth e v b x s. destruct s as [m c f o]. unfold shown, failure. cbn [verdict]. destruct m, (truth b) eqn:B;
    (eexists; split; [intros k; cbn [run mode_number check_mode Nat.leb]; rewrite ?B; reflexivity|]); cbn; rewrite ?app_nil_r, <- ?app_assoc; reflexivity.
Qed.
(** in the mode report the expression is written before it is evaluated, so that it is seen also if it does not return *)
Theorem C120_shown_first : forall V (truth : V -> bool) e q x k c f o, exists s, run truth (Check e Escape q (Return x) k) (State Report_all c f o) = (None, s) /\ output s = (o ++ [Newline; Write e; Text " => "])%list /\ correct s = c /\ failed s = f.
Proof. intros. eexists. split; [reflexivity|]. repeat split. Qed.

(** A check that fails and has a correct one in it, one that escapes, and a reset *)
Definition equals (x y : nat) : prog := Return (if Nat.eqb x y then 1 else 0).
Definition nonzero (n : nat) : bool := negb (Nat.eqb n 0).
Example C120_ex : fst (run nonzero (Check 10 (Check 11 (Return 5) equals (Return 5) (Return 6)) equals (Return 7)
    (Attempt (Check 12 Escape equals (Return 1) (Return 0)) (fun _ => Passed 1 (fun b => if b then Return 100 else
      Reset (Check 13 (Return 2) equals (Return 2) (Passed 1 (fun b => Return (if b then 101 else 102)))))))) loaded) = Some 101.
Proof. reflexivity. Qed.
Example C120_ex_report : output (snd (run nonzero (Set_mode (Some Report_failed) (Check 11 (Return 5) equals (Return 5) (Check 10 (Return 6) equals (Return 7) (Set_mode (Some Summary) (Report (Return 0)))))) loaded)) =
  [Newline; Write 10; Text " => "; Write 6; Text " ; "; Text "*** failed ***"; Newline; Text " ; expected result: "; Write 7; Newline;
   Newline; Text "; *** checks *** : "; Number 1; Text " correct, "; Number 1; Text " failed."; Newline].
Proof. reflexivity. Qed.
Example C120_ex_history : since [Done_check (Completed 1 1 1 true); Cleared; Done_check (Completed 2 3 4 false)] = [Completed 2 3 4 false].
Proof. reflexivity. Qed.

Print Assumptions C120_history.
Print Assumptions C120_once.
Print Assumptions C120_report.
Print Assumptions C120_shown.
Print Assumptions C120_shown_first.
