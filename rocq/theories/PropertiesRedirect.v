(** Property theorems about the default ports and the ports opened for a procedure (C121): Redirect.v, against RedirectSpec.v. *)
From Coq Require Import ZArith List Bool Lia.
From Verif Require Import Redirect RedirectSpec RedirectProofs.
Import ListNotations.
Local Open Scope Z_scope.

(** ** C121: where reading and writing without a port go, and when ports are closed *)
(** The standard ports, which are the default ports at first *)
Definition standard_ports : bool -> nat := fun out => if out then 1%nat else 0%nat.
Definition at_first : ports := {| history := []; status := [true; true] |}.

(** Every program that does not assign the parameters does the same to the ports as the specification says, where the default ports are
    those of the dynamic extent, and comes to the same end with the same values *)
Theorem C121_runs : forall fs p, standard p ->
  does (next fs) (opening fs) p standard_ports at_first =
    (match fst (run fs p initial) with Done o => Returned (spread o) | Jump n o => Left_by n (spread o) | Fail e => Failed e end,
     {| history := log (snd (run fs p initial)); status := live (snd (run fs p initial)) |}).
Proof.
  intros fs p P. destruct (run_does fs p P standard_ports initial) as [A _].
  - repeat split.
  - intros [|]; reflexivity.
  - change at_first with (ports_of initial). rewrite A. destruct (run fs p initial) as [[] s]; reflexivity.
Qed.
Print Assumptions C121_runs.
(** Any program that returns, also one that assigns the parameters, leaves the bindings as they were, whatever escapes and errors
    there were in it *)
Theorem C121_restored : forall fs p o s, run fs p initial = (Done o, s) -> bound s = bound initial /\ extents s = extents initial.
Proof.
  intros fs p o s H. assert (S0 : sound initial) by (repeat split). pose proof (run_keeps fs p initial S0) as K. rewrite H in K.
  split; [exact (kept_bound _ _ _ S0 K)|]. destruct K as (_ & _ & xs & X & D). rewrite (D o eq_refl) in X. exact X.
Qed.
Print Assumptions C121_restored.

Lemma shut_closed : forall q w, (2 <= q)%nat -> nth q (status (shut q w)) false = false.
Proof.
  intros q w H. unfold shut. cbn [status]. destruct (Nat.ltb_spec q 2); [lia|]. destruct (Nat.ltb_spec q (length (status w))).
  - set (f := fun i => if (i =? q)%nat then false else nth i (status w) false). rewrite (nth_indep _ _ (f 0%nat)) by (rewrite map_length, seq_length; assumption).
    rewrite map_nth, seq_nth by assumption. unfold f. cbn [Nat.add]. rewrite Nat.eqb_refl. reflexivity.
  - apply nth_overflow. rewrite map_length, seq_length. assumption.
Qed.
(** with-output-to-file, with-input-from-file, call-with-output-file and call-with-input-file close the port they opened, which is
    the last thing they do to a port; the port opened first has the number 2 *)
Theorem C121_closed : forall fs out path body,
  (forall o s, standard body -> run fs (With_file out path body Finish) initial = (Done o, s) -> hd_error (log s) = Some (Closed 2) /\ nth 2 (live s) false = false) /\
  (forall f o s, (forall q, standard (f q)) -> run fs (Call_with_file out path f Finish) initial = (Done o, s) -> hd_error (log s) = Some (Closed 2) /\ nth 2 (live s) false = false).
Proof.
  intros fs out path body. split; [intros o s P H|intros f o s P H].
  - assert (Q : standard (With_file out path body Finish)) by (constructor; [exact P|intros; constructor]). pose proof (C121_runs fs _ Q) as R. rewrite H in R. cbn [fst snd] in R.
    cbn [does at_first history status length] in R. destruct (opening fs [] out path) as [e|l]; [discriminate R|].
    destruct (does (next fs) (opening fs) body _ _) as [[vs|n vs|e] w]; [|discriminate R..]. injection R as _ A B. rewrite <- A, <- B. split; [reflexivity|]. apply (shut_closed 2 w). lia.
  - assert (Q : standard (Call_with_file out path f Finish)) by (constructor; [exact P|intros; constructor]). pose proof (C121_runs fs _ Q) as R. rewrite H in R. cbn [fst snd] in R.
    cbn [does at_first history status length] in R. destruct (opening fs [] out path) as [e|l]; [discriminate R|].
    destruct (does (next fs) (opening fs) (f 2%nat) _ _) as [[vs|n vs|e] w]; [|discriminate R..]. injection R as _ A B. rewrite <- A, <- B. split; [reflexivity|]. apply (shut_closed 2 w). lia.
Qed.
Print Assumptions C121_closed.
(** In part: opening a file gives an open port if the file can be opened.  The whole statement is opening fs h out path = should_open fs h out path;
    it fails for the files that cannot be opened, see the refutations. *)
Theorem C121_opening_partial : forall fs h out path, usable fs h out path = true -> opening fs h out path = should_open fs h out path.
Proof.
  intros fs h out path H. unfold should_open. rewrite H. unfold opening, usable in *. destruct out; [rewrite H; reflexivity|].
  apply andb_prop in H. destruct H as [-> ->]. reflexivity.
Qed.
Print Assumptions C121_opening_partial.

(** A world without files, in which none can be written *)
Definition nowhere : files := {| found := fun _ _ => false; readable := fun _ _ => false; writable := fun _ _ => false; next := fun _ _ => -1 |}.
(** (with-output-to-file "/no/such/directory/file" (lambda () (write-char #\a))) returns as if all were well: no error, and what was written goes to a
    port that is not open *)
Theorem C121_open_output_refuted : exists fs p, standard p /\
  fst (does (next fs) (should_open fs) p standard_ports at_first) = Failed File_error /\
  exists o s, run fs p initial = (Done o, s) /\ log s = [Closed 2; Wrote 2 97; Opened 2 true 7].
Proof.
  exists nowhere, (With_file true 7 (Write_char 97 None (Finish [0])) Finish). split; [constructor; [constructor; constructor|intros; constructor]|].
  split; [reflexivity|]. eexists _, _. split; reflexivity.
Qed.
Print Assumptions C121_open_output_refuted.
(** (open-input-file "missing") raises an error that file-error? does not know *)
Theorem C121_open_input_refuted : exists fs p, standard p /\
  fst (does (next fs) (should_open fs) p standard_ports at_first) = Failed File_error /\ fst (run fs p initial) = Fail Plain_error.
Proof.
  exists nowhere, (Open false 7 (fun _ => Finish [])). split; [constructor; intros; constructor|]. split; reflexivity.
Qed.
Print Assumptions C121_open_input_refuted.
(** A file that is there but must not be read: (open-input-file "secret") returns a port that is not open *)
Theorem C121_open_unreadable_refuted : exists fs p, standard p /\
  fst (does (next fs) (should_open fs) p standard_ports at_first) = Failed File_error /\ fst (run fs p initial) = Done (One 0).
Proof.
  exists {| found := fun _ _ => true; readable := fun _ _ => false; writable := fun _ _ => false; next := fun _ _ => -1 |},
    (Open false 7 (fun q => Ask_open q (fun b => Finish [if b then 1 else 0]))).
  split; [constructor; intros; constructor; intros; constructor|]. split; reflexivity.
Qed.
Print Assumptions C121_open_unreadable_refuted.

(** A world in which every file is there *)
Definition everywhere : files := {| found := fun _ _ => true; readable := fun _ _ => true; writable := fun _ _ => true; next := fun _ q => Z.of_nat q |}.
(** If the thunk assigns current-output-port, as SRFI 39 allows, with-output-to-file closes the port that was assigned and not the file it opened:
    (let ((log (open-output-file "log"))) (with-output-to-file "file" (lambda () (current-output-port log)))) *)
Theorem C121_assigned_refuted : exists fs p o s, run fs (Open true 5 (fun q => With_file true 7 (p q) Finish)) initial = (Done o, s) /\
  log s = [Closed 2; Opened 3 true 7; Opened 2 true 5] /\ live s = [true; true; false; true].
Proof.
  exists everywhere, (fun q => Assign true q (Finish [0])). eexists _, _. split; [reflexivity|]. split; reflexivity.
Qed.
Print Assumptions C121_assigned_refuted.

(** Two redirections, one in the other, left by an escape to between them; an explicit port; then the standard output again *)
Definition nested : prog :=
  With_file true 7
    (Write_char 97 None
      (Capture (With_file true 8 (Write_char 98 None (Write_char 99 (Some 1%nat) (Leave 0 [4; 5]))) Finish)
        (fun vs => Write_char (Z.of_nat (length vs)) None (Finish vs))))
    (fun vs => Write_char 100 None (Finish vs)).
Example C121_ex_nested : run everywhere nested initial =
  (Done (Tagged [4; 5]), {| log := [Wrote 1 100; Closed 2; Wrote 2 2; Wrote 1 99; Wrote 3 98; Opened 3 true 8; Wrote 2 97; Opened 2 true 7];
     live := [true; true; false; true]; cells := [0; 1; 2; 3]%nat; bound := []; extents := []; pairs := 2 |}).
Proof. vm_compute. reflexivity. Qed.
Example C121_ex_nested_standard : standard nested.
Proof. repeat (constructor; intros). Qed.
(** An error in the middle; the handler writes to the port outside *)
Example C121_ex_guard : log (snd (run everywhere (Guard (With_file true 7 (Write_char 97 None (Raise (Raised 1))) Finish) (fun _ => Write_char 98 None (Finish [])) Finish) initial)) =
  [Wrote 1 98; Wrote 2 97; Opened 2 true 7].
Proof. vm_compute. reflexivity. Qed.
(** call-with-port closes its port and passes all values on; reading goes to the other parameter *)
Example C121_ex_port : run everywhere (Open false 7 (fun q => Call_with_port q (fun q => Read_char (Some q) (fun c => Read_char None (fun d => Finish [c; d]))) Finish)) initial =
  (Done (Tagged [2; 0]), {| log := [Closed 2; Got 0 0; Got 2 2; Opened 2 false 7]; live := [true; true; false]; cells := [0; 1]%nat; bound := []; extents := []; pairs := 0 |}).
Proof. vm_compute. reflexivity. Qed.
(** The standard ports cannot be closed *)
Example C121_ex_standard : live (snd (run everywhere (Close 1 (Write_char 97 None (Finish []))) initial)) = [true; true].
Proof. vm_compute. reflexivity. Qed.
