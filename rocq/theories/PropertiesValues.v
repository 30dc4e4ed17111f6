(** Property theorems about values and call-with-values (C72) of library/r5rs.ss, exit (C73)
    of library/meevax.ss and for-each (C74) of library/r4rs.ss, on their compiled code. *)
From Coq Require Import String ZArith List Bool Lia.
From Verif Require Import Machine Generator Evaluate LibraryCode Reach Symbolic SharedMemory ContinuationProofs WindSpec TraceProgram ProgramText MapProofs ValuesProofs ExitLibrary PropertiesControl.
Import ListNotations.

(** ** C72: multiple values *)
(** A value w stands for the values us: several values are a pair of the tag and their list,
    one value stands for itself if it is not such a pair *)
Definition stands_for (P : frame) (M : memory) (w : val) (us : list val) : Prop :=
  (exists p v, w = VPtr p /\ P p (OPair (global "<values>") v) /\ lst P v us) \/
  us = [w] /\ match w with
              | VPtr p => (exists o, P p o /\ forall x y, o = OPair x y -> x <> global "<values>") \/ (exists x y, M p = Some (x, y) /\ x <> global "<values>")
              | _ => True
              end.
Lemma stands_delivered P M w us : stands_for P M w us <-> delivered P M w us.
Proof.
  unfold stands_for, delivered, several, untagged. change (global "<values>") with (VPtr 149). split; (intros [H|(E & H)]; [left; exact H|right; split; [exact E|]]).
  - destruct w as [|i|p]; auto. destruct H as [(o & Ho & T)|H]; [left|right; exact H]. exists o. split; [exact Ho|]. destruct o; auto. eapply T. reflexivity.
  - destruct w as [|i|p]; auto. destruct H as [(o & Ho & T)|H]; [left|right; exact H]. exists o. split; [exact Ho|]. intros x y ->. exact T.
Qed.

(** What a single value has to be: not the pair that values makes of several *)
Definition single (P : frame) (M : memory) (w : val) : Prop := stands_for P M w [w].
Lemma single_up P P' M w : sub P P' -> single P M w -> single P' M w.
Proof.
  intros U [(p & v & E & H & L)|(E & H)].
  - left. exists p, v. split; [exact E|]. split; [apply U, H|eapply lst_up; eassumption].
  - right. split; [exact E|]. destruct w as [|i|p]; auto. destruct H as [(o & Ho & T)|H]; [left; exists o; auto|right; exact H].
Qed.

(** The value of (values u ...) stands for u ..., for any number of values; values does
    nothing else *)
Theorem C72_values : forall proc ghost own (Inv : ghost -> heap -> list gval -> list val -> frame -> Prop), program proc own Inv ->
  forall aim l M a P xs us (R : val -> ghost * memory -> list val -> frame -> Prop),
  lib P -> lst P xs us -> (forall x, us = [x] -> single P M x) ->
  (forall w P', sub P P' -> stands_for P' M w us -> R w (l, M) a P') ->
  returns proc _ (shared Inv) aim (global "values") xs (l, M) a P R.
Proof.
  intros proc ghost own Inv (Hp & Ok) aim l M a P xs us R L A S K. change (global "values") with (VPtr 150).
  eapply (values_runs proc Hp _ _ _ Ok); [exact L|exact A|]. intros w P' U D. apply K; [exact U|].
  destruct us as [|x [|y us]]; [left; exact D| |left; exact D]. subst w. apply (single_up P P' M x U), S. reflexivity.
Qed.
Print Assumptions C72_values.
(** call-with-values calls the producer without arguments and then, in tail position, the
    consumer with the values that the result stands for *)
Theorem C72_call_with_values : forall proc ghost own (Inv : ghost -> heap -> list gval -> list val -> frame -> Prop), program proc own Inv ->
  forall aim l M a P xs producer consumer (R : val -> ghost * memory -> list val -> frame -> Prop),
  lib P -> lst P xs [producer; consumer] ->
  returns proc _ (shared Inv) aim producer VNil (l, M) a P (fun w lm a' P' => exists us, stands_for P' (snd lm) w us /\
    forall P2 v, sub P' P2 -> lst P2 v us -> returns proc _ (shared Inv) aim consumer v lm a' P2 R) ->
  returns proc _ (shared Inv) aim (global "call-with-values") xs (l, M) a P R.
Proof.
  intros proc ghost own Inv (Hp & Ok) aim l M a P xs f k R L A H. change (global "call-with-values") with (VPtr 151).
  eapply (call_with_values_runs proc Hp _ _ _ Ok); [exact L|exact A|]. eapply returns_mono; [|exact H]. cbn beta.
  intros w lm a' P' _ (us & D & N). exists us. split; [apply stands_delivered, D|exact N].
Qed.
Print Assumptions C72_call_with_values.
(** Both together, whatever values are represented by: if the producer ends in a call of
    values with us, the consumer is called with exactly us *)
Theorem C72_end_to_end : forall proc ghost own (Inv : ghost -> heap -> list gval -> list val -> frame -> Prop), program proc own Inv ->
  forall aim l M l' M' a a' P P' xs us producer consumer (R : val -> ghost * memory -> list val -> frame -> Prop),
  lib P -> lst P xs [producer; consumer] -> sub P P' ->
  (forall post, (forall P2 ys, sub P' P2 -> lst P2 ys us -> returns proc _ (shared Inv) aim (global "values") ys (l', M') a' P2 post) ->
     returns proc _ (shared Inv) aim producer VNil (l, M) a P post) ->
  (forall x, us = [x] -> single P' M' x) ->
  (forall P2 v, sub P' P2 -> lst P2 v us -> returns proc _ (shared Inv) aim consumer v (l', M') a' P2 R) ->
  returns proc _ (shared Inv) aim (global "call-with-values") xs (l, M) a P R.
Proof.
  intros proc ghost own Inv Pr aim l M l' M' a a' P P' xs us f k R L A U F S K. eapply C72_call_with_values; [exact Pr|exact L|exact A|].
  apply F. intros P2 ys U2 Y. eapply C72_values; [exact Pr|eapply lib_up; [|exact L]; eapply sub_trans; eassumption|exact Y|intros x E; apply (single_up P' P2 M' x U2), S, E|].
  intros w P3 U3 D. exists us. split; [exact D|]. intros P4 v U4 V. apply K; [|exact V]. eapply sub_trans; [exact U2|]. eapply sub_trans; eassumption.
Qed.
Print Assumptions C72_end_to_end.
Open Scope string_scope.
Open Scope list_scope.
Example C72_ex_many : notes "(call-with-values (lambda () (values 'a 'b 'c)) (lambda (x y z) (note z) (note y) (note x)))" = Some (map text_of ["c"; "b"; "a"]).
Proof. vm_compute. reflexivity. Qed.
Example C72_ex_none_one : notes "(call-with-values (lambda () (values)) (lambda xs (note (null? xs))))
  (call-with-values (lambda () (values 'a)) (lambda (x) (note x)))
  (call-with-values (lambda () 'b) (lambda (x) (note x)))
  (call-with-values (lambda () (list 'c 'd)) (lambda (x) (note (car x)) (note (cadr x))))" = Some (map text_of ["#t"; "a"; "b"; "c"; "d"]).
Proof. vm_compute. reflexivity. Qed.
(** The values pass through dynamic-wind and force *)
Example C72_ex_wind : notes "(call-with-values (lambda () (dynamic-wind (lambda () (note 'in)) (lambda () (values 'a 'b)) (lambda () (note 'out))))
  (lambda (x y) (note x) (note y)))" = Some (map text_of ["in"; "out"; "a"; "b"]).
Proof. vm_compute. reflexivity. Qed.
(** R7RS 6.10: the continuation of the producer takes any number of values, values might be
    defined as below; the continuations made here take the first and drop the others *)
Theorem C72_continuation_refuted :
  notes "(define (values* . things)
           (call-with-current-continuation (lambda (cont) (apply cont things))))
         (call-with-values (lambda () (values* 'a 'b)) (lambda xs (map note xs)))" = Some (map text_of ["a"]) /\
  notes "(call-with-values (lambda () (values 'a 'b)) (lambda xs (map note xs)))" = Some (map text_of ["a"; "b"]).
Proof. split; vm_compute; reflexivity. Qed.
Print Assumptions C72_continuation_refuted.

(** ** C73: exit *)
(** The full statement: exit calls the after thunks of all extents, the innermost first,
    each after the one before it has returned, and then emergency-exit with its own
    arguments.  It is false, C73_exit_refuted.  It holds of the same text of exit in an
    environment where letrec is the keyword, as the text means it; what is missing is that
    the library (meevax continuation) does not import letrec *)
Theorem C73_if_letrec_partial : forall proc ghost own (Inv : ghost -> heap -> list gval -> list val -> frame -> Prop), program proc own Inv ->
  forall aim l h g a P X F xs us s e c d,
  Inv l h g a P -> lib P -> lst P xs us -> nth_error a 0 = Some X -> chain P X F ->
  leaves proc ghost Inv aim F l a P (fun l' a' P' => forall h' g' P2 v s' e' c' d', Inv l' h' g' a' P2 -> sub P' P2 -> lst P2 v us ->
    calls proc (global "emergency-exit") v s' e' c' d' h' g' a' aim) ->
  calls proc (global "exit") xs s e c d h g a aim.
Proof.
  intros proc ghost own Inv (Hp & Ok) aim l h g a P X F xs us s e c d I L A N C H. change (global "exit") with (VPtr 147).
  eapply (exit_runs proc Hp _ _ _ Ok); eassumption.
Qed.
Print Assumptions C73_if_letrec_partial.
(** On the traced program of C40: that exit from any extents whose thunks log their calls logs
    exactly the after thunks, the innermost first, before it ends *)
Example C73_logged : forall n l h g a P X F xs us s e c d, traced n l h g a P -> lib P -> lst P xs us -> nth_error a 0 = Some X -> chain P X F ->
  (forall x, In x F -> exists j, j < n /\ after x = logger j) ->
  calls library_primitive (global "exit") xs s e c d h g a (fun st => exists l' h' g' a' P' v s' e' c' d', traced n l' h' g' a' P' /\ lst P' v us /\
    map fst l' = map fst l ++ map after F /\ (calling (global "emergency-exit") v s' e' c' d' h' g' a' st)).
Proof.
  intros n l h g a P X F xs us s e c d I L A N C Th. eapply (C73_if_letrec_partial _ _ _ _ (C40_program n)); [exact I|exact L|exact A|exact N|exact C|]. pose proof I as I0. clear I A N C xs s e c d X.
  assert (G : forall aim F (K : list event -> list val -> frame -> Prop) l1 a1 P1, length a1 = 4 -> (forall x, In x F -> exists j, j < n /\ after x = logger j) ->
    (forall l' a' P', map fst l' = map fst l1 ++ map after F -> K l' a' P') -> leaves library_primitive _ (traced n) aim F l1 a1 P1 K).
  { intros aim F0 K. induction F0 as [|x F0 IH]; intros l1 a1 P1 La T HK; cbn [leaves].
    - intros P' _. apply HK. rewrite app_nil_r. reflexivity.
    - destruct (T x (or_introl eq_refl)) as (j & Hj & Ej). rewrite Ej.
      assert (N : exists X, nth_error a1 0 = Some X) by (destruct a1; [discriminate La|eexists; reflexivity]). destruct N as (X & N).
      eapply returns_mono; [|apply logger_returns with (X := X); [exact Hj|exact N]]. cbn beta. intros _ l' a' P' _ (-> & La').
      apply IH; [exact La'|intros y Hy; apply T; right; exact Hy|]. intros l2 a2 P2 E2. apply HK. rewrite E2, map_app, <- app_assoc. cbn [map app fst]. rewrite Ej. reflexivity. }
  apply G; [destruct I0 as [_ _ _ Tr _]; exact Tr|exact Th|]. intros l' a' P' E h' g' P2 v s' e' c' d' I' U' V st Cst. apply r_done.
  exists l', h', g', a', P2, v, s', e', c', d'. auto.
Qed.
(** The state after this number of instructions; [None] when the machine has ended before *)
Fixpoint after_steps (proc : nat -> heap -> val -> presult) (k : nat) (st : state) : option state :=
  match k with
  | O => Some st
  | Datatypes.S k => match step proc st with Next st => after_steps proc k st | _ => None end
  end.
(** exit, as its own library defines it: from whatever extents it is called, its first
    four instructions lead to the call of emergency-exit with its arguments; the extents
    (register 0) and the global variables are as they were, no thunk has been called, and
    emergency-exit does not return.  letrec is not a keyword there, so that the whole body is a
    call of a variable letrec; operands are evaluated from the last to the first, and the
    last one is the call of emergency-exit *)
Theorem C73_exit_refuted :
  (forall proc xs s e c d h g a st,
    callee h exit_value = callee exit_heap exit_value ->
    nth_error g (cell_of "emergency-exit") = nth_error (cells exit_env) (cell_of "emergency-exit") ->
    calling exit_value xs s e c d h g a st ->
    exists s' e' c' d' h' st', after_steps proc 4 st = Some st' /\ calling (global "emergency-exit") xs s' e' c' d' h' g a st' /\
      (callee h (global "emergency-exit") = callee exit_heap (global "emergency-exit") ->
       (forall n h xs, n < length procedures -> proc n h xs = library_primitive n h xs) -> exists h2, step proc st' = Throw h2)) /\
  exit_notes "(dynamic-wind (lambda () (note 'before)) (lambda () (exit)) (lambda () (note 'after))) (note 'end)" = Some (map text_of ["before"], false) /\
  exit_notes "(dynamic-wind (lambda () (note 'before)) (lambda () (note 'in)) (lambda () (note 'after))) (note 'end)"
    = Some (map text_of ["before"; "in"; "after"; "end"], true).
Proof.
  split; [|split; vm_compute; reflexivity]. intros proc xs s e c d h g a st H G C.
  assert (Hp : nth_error h 152 = nth_error exit_heap 152) by exact H.
  change (cell_of "emergency-exit") with 30 in G. change (nth_error (cells exit_env) 30) with (Some (GVal (VPtr 123))) in G.
  match eval vm_compute in (nth_error exit_heap 152) with ?o => change (nth_error exit_heap 152) with o in Hp end.
  change (global "emergency-exit") with (VPtr 123). change exit_value with (VPtr 152) in C.
  assert (Lt : 152 < length h) by (apply nth_error_Some; rewrite Hp; discriminate).
  assert (K : forall s' d', exists s2 e2 c2 d2 h2 st',
    after_steps proc 3 (St s' (VPtr (length h)) exit_code d' (h ++ [OPair xs VNil]) g a) = Some st' /\ calling (VPtr 123) xs s2 e2 c2 d2 h2 g a st' /\
      (callee h (VPtr 123) = callee exit_heap (VPtr 123) ->
       (forall n h xs, n < length procedures -> proc n h xs = library_primitive n h xs) -> exists h2, step proc st' = Throw h2)).
  { intros s' d'. assert (Hn : nth_error (h ++ [OPair xs VNil]) (length h) = Some (OPair xs VNil)) by (rewrite nth_error_app2, Nat.sub_diag by apply le_n; reflexivity).
    eexists _, _, _, _, _, _. split; [|split].
    - unfold exit_code. cbn [after_steps step]. unfold head. cbn [tail car]. rewrite Hn. cbn beta iota delta [obind tail after_steps step]. rewrite G. reflexivity.
    - apply C_call.
    - intros E Pr. cbn [callee] in E. change (nth_error exit_heap 123) with (Some (OProcedure 20)) in E.
      assert (E' : nth_error (h ++ [OPair xs VNil]) 123 = Some (OProcedure 20)) by (rewrite nth_error_app1 by (apply nth_error_Some; rewrite E; discriminate); exact E).
      cbn [step callee]. rewrite E', Pr by (cbn; repeat constructor). eexists. reflexivity. }
  destruct C as [|s0 e0 c0]; change 4 with (Datatypes.S 3); cbn [after_steps step callee]; rewrite Hp; cbn [alloc]; apply K.
Qed.
Print Assumptions C73_exit_refuted.
(** With letrec the after thunks would run, but in the wrong environment. R7RS 6.10: the
    after thunk runs in the dynamic environment of the call of dynamic-wind, so that it may
    leave for a continuation outside; that exit runs it inside of its own extent, and
    leaving runs it again *)
Example C73_outside_if_letrec :
  notes "(define first #t)
         (call-with-current-continuation
           (lambda (k)
             (dynamic-wind (lambda () (note 'before))
                           (lambda () (exit))
                           (lambda () (note 'after) (if first (begin (set! first #f) (k #f)))))))
         (note 'end)" = Some (map text_of ["before"; "after"; "after"; "end"]) /\
  notes "(define first #t)
         (call-with-current-continuation
           (lambda (k)
             (dynamic-wind (lambda () (note 'before))
                           (lambda () #f)
                           (lambda () (note 'after) (if first (begin (set! first #f) (k #f)))))))
         (note 'end)" = Some (map text_of ["before"; "after"; "end"]).
Proof. split; vm_compute; reflexivity. Qed.

(** ** C74: for-each *)
(** for-each calls the procedure once per row of the lists, in the order of the rows, each
    call after the one before it has returned, for any number of lists *)
Theorem C74_for_each : forall proc ghost own (Inv : ghost -> heap -> list gval -> list val -> frame -> Prop), program proc own Inv ->
  forall aim l a P f v vs Ls xs (K : ghost -> list val -> frame -> Prop),
  lib P -> lst P xs (f :: v :: vs) -> Forall2 (lst P) (v :: vs) Ls ->
  each proc ghost Inv aim f (rows Ls) l a P (fun _ l' a' P' => K l' a' P') ->
  returns proc ghost Inv aim (global "for-each") xs l a P (fun _ l' a' P' => K l' a' P').
Proof.
  intros proc ghost own Inv (Hp & Ok) aim l a P f v vs Ls xs K L X F H. change (global "for-each") with (VPtr 148).
  eapply (for_each_runs proc Hp _ _ _ Ok); eassumption.
Qed.
Print Assumptions C74_for_each.
Example C74_ex : notes "(for-each note (list 'a 'b 'c)) (for-each (lambda (x y) (note y) (note x)) (list 'a 'b 'c) (list 'd 'e)) (for-each note (list))"
  = Some (map text_of ["a"; "b"; "c"; "d"; "a"; "e"; "b"]).
Proof. vm_compute. reflexivity. Qed.
(** A continuation taken in the procedure goes on with the rest of the elements, again *)
Example C74_again : notes "(define again #f)
  (for-each (lambda (x) (call-with-current-continuation (lambda (k) (if (eq? x 'b) (if again #f (set! again k))))) (note x)) (list 'a 'b 'c))
  (if (procedure? again) ((lambda (k) (set! again #t) (k #f)) again))" = Some (map text_of ["a"; "b"; "c"; "b"; "c"]).
Proof. vm_compute. reflexivity. Qed.
