(** Property theorems about exceptions (C42): with-exception-handler, raise and
    raise-continuable of library/srfi-34.ss, on their compiled code, and what the machine
    does with its own errors and with exceptions that nobody handles. *)
From Coq Require Import String ZArith List Bool Lia.
From Verif Require Import Machine Generator Evaluate LibraryCode Reach Symbolic ContinuationProofs WindSpec TransferProofs TraceProgram ProgramText HandlerProofs Catch PropertiesControl.
Import ListNotations.

(** ** Specification *)
(** The handlers are a list, the innermost first, in register 2; see [current].
    A procedure, as far as the frame tells: *)
Definition procedure_in (P : frame) (x : val) : Prop := exists q o, x = VPtr q /\ P q o /\
  ((exists c e, o = OClosure c e) \/ (exists s e c d, o = OContinuation s e c d) \/ (exists n, o = OProcedure n)).
(** The program calls throw with x, in some continuation: it gets to [aim] *)
Definition uncaught proc {ghost} (Inv : ghost -> heap -> list gval -> list val -> frame -> Prop) (aim : state -> Prop) (x : val) (l : ghost) (a : list val) (P : frame) : Prop :=
  forall h g P' xs s e c d, Inv l h g a P' -> sub P P' -> lst P' xs [x] -> calls proc (global "throw") xs s e c d h g a aim.

Lemma procedure_applicable P x : procedure_in P x -> applicable P x.
Proof. intros (q & o & -> & H & D). exists q, o. split; [reflexivity|]. split; [exact H|]. destruct D as [(c & e & ->)|[(s & e & c & d & ->)|(n & ->)]]; reflexivity. Qed.

(** ** with-exception-handler *)
(** The thunk is called with the handler in front of the handlers that were current, in a new
    extent; when it returns, the handlers and the extents are again as they were before, and
    its value is the value. The thunks of the extent install the inner and the outer
    handlers. *)
Theorem C42_with : forall proc ghost own (Inv : ghost -> heap -> list gval -> list val -> frame -> Prop), program proc own Inv -> own 0 -> own 2 ->
  forall aim l a P xs handler thunk Y hs E F (R : val -> ghost -> list val -> frame -> Prop), lib P -> lst P xs [handler; thunk] ->
  nth_error a 2 = Some Y -> lst P Y hs -> nth_error a 0 = Some E -> chain P E F ->
  (forall b z p w P2, sub P P2 -> lst P2 w (handler :: hs) -> chain P2 (VPtr p) (Ext p b z :: F) ->
    installs proc ghost Inv aim 2 P2 b (handler :: hs) -> installs proc ghost Inv aim 2 P2 z hs ->
    returns proc ghost Inv aim thunk VNil l (update (update a 2 w) 0 (VPtr p)) P2 (fun v l2 a2 P3 => nth_error a2 0 = Some (VPtr p) /\
      forall P4, sub P3 P4 -> R v l2 (update (update a2 0 E) 2 Y) P4)) ->
  returns proc ghost Inv aim (global "with-exception-handler") xs l a P R.
Proof.
  intros proc ghost own Inv (Hp & Ok) O0 O2 aim l a P xs handler thunk Y hs E F R L A N2 V N0 C H. change (global "with-exception-handler") with (VPtr 138).
  eapply (with_handler proc Hp _ _ _ Ok aim O0 O2); try eassumption. intros b z p q P2 U Hq Ch B Z.
  assert (V2 : lst P2 Y hs) by (eapply lst_up; eassumption). assert (W : lst P2 (VPtr q) (handler :: hs)) by (econstructor; eassumption).
  eapply H; [exact U|exact W|exact Ch| |]; eapply puts_installs; eassumption.
Qed.
Print Assumptions C42_with.

(** ** raise *)
(** raise calls the innermost handler with the object, while the outer handlers are current,
    in a new extent; if the handler returns, throw is called with the object, in the context of the
    handler. raise itself never returns. *)
Theorem C42_raise : forall proc ghost own (Inv : ghost -> heap -> list gval -> list val -> frame -> Prop), program proc own Inv -> own 0 -> own 2 ->
  forall aim l a P xs x Y inner outer E F (R : val -> ghost -> list val -> frame -> Prop), lib P -> lst P xs [x] ->
  nth_error a 2 = Some Y -> lst P Y (inner :: outer) -> nth_error a 0 = Some E -> chain P E F -> procedure_in P inner ->
  (forall b z p w P2 ys, sub P P2 -> lst P2 w outer -> chain P2 (VPtr p) (Ext p b z :: F) ->
    installs proc ghost Inv aim 2 P2 b outer -> installs proc ghost Inv aim 2 P2 z (inner :: outer) -> lst P2 ys [x] ->
    returns proc ghost Inv aim inner ys l (update (update a 2 w) 0 (VPtr p)) P2 (fun _ l2 a2 P3 => uncaught proc Inv aim x l2 a2 P3)) ->
  returns proc ghost Inv aim (global "raise") xs l a P R.
Proof.
  intros proc ghost own Inv (Hp & Ok) O0 O2 aim l a P xs x Y inner outer E F R L A N2 V N0 C Pr H. change (global "raise") with (VPtr 139).
  inversion V as [|q ? o ? HY V']; subst. apply procedure_applicable in Pr.
  eapply (raise_runs proc Hp _ _ _ Ok aim O0 O2); try eassumption. intros b z p P2 ys U Ch B Z Ys.
  assert (Vo : lst P2 o outer) by (eapply lst_up; eassumption).
  eapply H; [exact U|exact Vo|exact Ch|eapply puts_installs; eassumption|eapply puts_installs; [eassumption|eapply lst_up; eassumption]|exact Ys].
Qed.
Print Assumptions C42_raise.
(** raise-continuable returns what the handler returns, with the handlers and the extents that
    were current before *)
Theorem C42_raise_continuable : forall proc ghost own (Inv : ghost -> heap -> list gval -> list val -> frame -> Prop), program proc own Inv -> own 0 -> own 2 ->
  forall aim l a P xs x Y inner outer E F (R : val -> ghost -> list val -> frame -> Prop), lib P -> lst P xs [x] ->
  nth_error a 2 = Some Y -> lst P Y (inner :: outer) -> nth_error a 0 = Some E -> chain P E F -> procedure_in P inner ->
  (forall b z p w P2 ys, sub P P2 -> lst P2 w outer -> chain P2 (VPtr p) (Ext p b z :: F) ->
    installs proc ghost Inv aim 2 P2 b outer -> installs proc ghost Inv aim 2 P2 z (inner :: outer) -> lst P2 ys [x] ->
    returns proc ghost Inv aim inner ys l (update (update a 2 w) 0 (VPtr p)) P2 (fun v l2 a2 P3 => nth_error a2 0 = Some (VPtr p) /\
      forall P4, sub P3 P4 -> R v l2 (update (update a2 0 E) 2 Y) P4)) ->
  returns proc ghost Inv aim (global "raise-continuable") xs l a P R.
Proof.
  intros proc ghost own Inv (Hp & Ok) O0 O2 aim l a P xs x Y inner outer E F R L A N2 V N0 C Pr H. change (global "raise-continuable") with (VPtr 140).
  inversion V as [|q ? o ? HY V']; subst. apply procedure_applicable in Pr.
  eapply (raise_continuable_runs proc Hp _ _ _ Ok aim O0 O2); try eassumption. intros b z p P2 ys U Ch B Z Ys.
  assert (Vo : lst P2 o outer) by (eapply lst_up; eassumption).
  eapply H; [exact U|exact Vo|exact Ch|eapply puts_installs; eassumption|eapply puts_installs; [eassumption|eapply lst_up; eassumption]|exact Ys].
Qed.
Print Assumptions C42_raise_continuable.
(** Without a handler, both call throw with the object, while the registers are as before *)
Theorem C42_no_handler : forall proc ghost own (Inv : ghost -> heap -> list gval -> list val -> frame -> Prop), program proc own Inv ->
  forall aim l a P xs x (R : val -> ghost -> list val -> frame -> Prop) f, f = "raise"%string \/ f = "raise-continuable"%string ->
  lib P -> lst P xs [x] -> nth_error a 2 = Some VNil -> uncaught proc Inv aim x l a P ->
  returns proc ghost Inv aim (global f) xs l a P R.
Proof.
  intros proc ghost own Inv (Hp & Ok) aim l a P xs x R f Hf L A N T.
  assert (K : exists k, global f = VPtr k /\ (k = 139 \/ k = 140)) by (destruct Hf as [-> | ->]; [exists 139|exists 140]; split; auto; reflexivity).
  destruct K as (k & -> & K). eapply (raise_none proc Hp _ _ _ Ok); try eassumption.
Qed.
Print Assumptions C42_no_handler.

(** ** Exceptions that leave the machine, errors of the machine *)
(** What the machine gets to, errors included *)
Inductive leads proc handler : state -> state -> Prop :=
| Le_here st : leads proc handler st st
| Le_step st st1 st2 : step_caught proc handler st = inl st1 -> leads proc handler st1 st2 -> leads proc handler st st2.
Lemma leads_of proc handler st Q : reaches proc st Q -> exists st', leads proc handler st st' /\ Q st'.
Proof.
  intros (st' & S & H). exists st'. split; [|exact H]. clear H. induction S as [st|st st1 st2 E S IH]; [constructor|].
  econstructor; [|exact IH]. unfold step_caught. rewrite E. reflexivity.
Qed.
(** throw leaves the machine with the object: no handler is called *)
Theorem C42_throw : forall proc ghost own (Inv : ghost -> heap -> list gval -> list val -> frame -> Prop), program proc own Inv ->
  forall l h g a P xs x s e c d handler st, Inv l h g a P -> lib P -> lst P xs [x] -> calling (global "throw") xs s e c d h g a st ->
  step_caught proc handler st = inr (Uncaught x st).
Proof.
  intros proc ghost own Inv (Hp & Ok) l h g a P xs x s e c d handler st I L A C. change (global "throw") with (VPtr 122) in C.
  assert (N : nth_error h 122 = Some (OProcedure 19)) by (apply (inv_has _ _ Ok _ _ _ _ _ _ _ I), L; reflexivity).
  pose proof (lst_head _ _ _ Ok _ _ _ _ _ _ _ 0 x I A eq_refl) as Hx.
  assert (T : proc 19 h xs = PThrow h) by (rewrite Hp by (cbn; lia); reflexivity).
  destruct C; unfold step_caught; cbn [step callee thrown]; rewrite N; cbv beta iota; rewrite T; cbn [Nat.eqb throw_number]; rewrite Hx; reflexivity.
Qed.
Print Assumptions C42_throw.
(** An error of the machine: raise is called, with a new object, while the handlers, the
    bindings and the extents are those of the point of the error *)
Theorem C42_kernel_error : forall proc ghost own (Inv : ghost -> heap -> list gval -> list val -> frame -> Prop), program proc own Inv ->
  forall aim st h l P, step proc st = Throw h -> thrown st = None -> Inv l h (st_g st) (st_a st) P -> lib P ->
  (forall p xs P', sub P P' -> P' p (OOther 0) -> lst P' xs [VPtr p] -> returns proc ghost Inv aim (global "raise") xs l (st_a st) P' (fun _ _ _ _ => False)) ->
  exists st', leads proc (global "raise") st st' /\ aim st'.
Proof.
  intros proc ghost own Inv (Hp & Ok) aim st h l P E T I L H.
  pose proof (inv_alloc _ _ Ok _ _ _ _ _ (OOther 0) I) as I1. pose proof (inv_alloc _ _ Ok _ _ _ _ _ (OPair (VPtr (length h)) VNil) I1) as I2.
  destruct (leads_of proc (global "raise") (deliver (global "raise") st h) aim) as (st' & K & A).
  - cbn [deliver alloc]. eapply H; [| | |exact I2|apply sub_refl| |constructor].
    + eapply sub_trans; apply add_sub.
    + apply add_sub, add_new.
    + econstructor; [apply add_new|constructor].
    + intros ? ? ? ? ? ? _ _ [].
  - exists st'. split; [|exact A]. econstructor; [|exact K]. unfold step_caught. rewrite E, T. reflexivity.
Qed.
Print Assumptions C42_kernel_error.

(** ** Exit and entry by a continuation *)
(** hs x are the handlers that the extent x of with-exception-handler or of raise makes
    current, none for an extent of another kind. The handlers that belong to a list of
    extents are those of the innermost extent that has some. *)
Fixpoint handlers_of (hs : extent -> option (list val)) (F : list extent) : list val :=
  match F with
  | [] => []
  | x :: F => match hs x with Some vs => vs | None => handlers_of hs F end
  end.
(** The thunks of the extents make the handlers of their extent current, and those around it *)
Definition guarded proc {ghost} (Inv : ghost -> heap -> list gval -> list val -> frame -> Prop) (aim : state -> Prop) (hs : extent -> option (list val)) (P : frame) (F : list extent) : Prop :=
  forall F0 x F1, F = F0 ++ x :: F1 ->
  (forall l a P' X, sub P P' -> current 2 (handlers_of hs F1) a P' ->
    returns proc ghost Inv aim (before x) VNil l (update a 0 X) P' (fun _ l' a' P2 => current 2 (handlers_of hs (x :: F1)) a' P2)) /\
  (forall l a P' X, sub P P' -> current 2 (handlers_of hs (x :: F1)) a P' ->
    returns proc ghost Inv aim (after x) VNil l (update a 0 X) P' (fun _ l' a' P2 => current 2 (handlers_of hs F1) a' P2)).
(** The extents of with-exception-handler and of raise are such extents, and so are those of
    parameterize, which install another register *)
Theorem C42_guarded : forall proc ghost (Inv : ghost -> heap -> list gval -> list val -> frame -> Prop) aim hs P F x,
  guarded proc Inv aim hs P F ->
  (exists vs, hs x = Some vs /\ installs proc ghost Inv aim 2 P (before x) vs /\ installs proc ghost Inv aim 2 P (after x) (handlers_of hs F)) \/
  (hs x = None /\ exists r vs ws, r <> 2 /\ installs proc ghost Inv aim r P (before x) vs /\ installs proc ghost Inv aim r P (after x) ws) ->
  guarded proc Inv aim hs P (x :: F).
Proof.
  intros proc ghost Inv aim hs P F x H D [|y F0] x' F1 E; cbn [app] in E; injection E as -> ->; [|eapply H; reflexivity].
  destruct D as [(vs & Hx & B & Z)|(Hx & r & vs & ws & Nr & B & Z)].
  - assert (Put : forall (a : list val) X v w, nth_error a 2 = Some v -> nth_error (update (update a 0 X) 2 w) 2 = Some w).
    { intros a X v w A. eapply update_at. rewrite register_ne by lia. exact A. }
    split; intros l a P' X U (v & A & V); (eapply returns_mono; [|first [apply (B l _ P' U)|apply (Z l _ P' U)]]); cbn beta; intros v' l' a' P2 U2 (-> & w & -> & W); exists w; cbn [handlers_of]; rewrite ?Hx; (split; [eapply Put, A|exact W]).
  - split; intros l a P' X U (v & A & V); (eapply returns_mono; [|first [apply (B l _ P' U)|apply (Z l _ P' U)]]); cbn beta; intros v' l' a' P2 U2 (-> & w & -> & W); exists v; cbn [handlers_of] in *; rewrite Hx in *; (split; [rewrite !register_ne by lia; exact A|eapply lst_up; eassumption]).
Qed.
Print Assumptions C42_guarded.
(** A continuation made in the extents T is called in the extents F, with the handlers of F:
    the program goes on with the handlers of T *)
Theorem C42_transfer : forall proc ghost own (Inv : ghost -> heap -> list gval -> list val -> frame -> Prop), program proc own Inv ->
  forall k P T s e c d, resumes proc Inv k P T s e c d ->
  forall hs l h g a P' F X Y xs v s1 e1 c1 d1 aim,
  Inv l h g a P' -> sub P P' -> lst P' xs [v] -> nth_error a 0 = Some X -> chain P' X F -> chain P' Y T ->
  guarded proc Inv aim hs P' F -> guarded proc Inv aim hs P' T -> current 2 (handlers_of hs F) a P' ->
  (forall l' h' g' a' P2, Inv l' h' g' a' P2 -> current 2 (handlers_of hs T) a' P2 -> reaches proc (St (v :: s) e c d h' g' a') aim) ->
  calls proc k xs s1 e1 c1 d1 h g a aim.
Proof.
  intros proc ghost own Inv (_ & Ok) k P T s e c d H hs l h g a P' F X Y xs v s1 e1 c1 d1 aim I U A N CF CT BF BT C K.
  assert (Un : forall q o o', P' q o -> P' q o' -> o = o').
  { intros q o o' H1 H2. pose proof (inv_has _ _ Ok _ _ _ _ _ _ _ I H1). pose proof (inv_has _ _ Ok _ _ _ _ _ _ _ I H2). congruence. }
  eapply H; [exact I|exact U|exact A|exact N|exact CF|].
  eapply runs_mono; [|apply (windup_keeps proc ghost Inv aim 2 (handlers_of hs) F T l a P' (chain_consistent P' X Y F T Un CF CT) BF BT C)].
  intros l' a' P2 _ (w & A' & W) h' g' P3 I3 U3. eapply K; [exact I3|]. exists w. split; [|eapply lst_up; eassumption]. rewrite register_ne by lia. exact A'.
Qed.
Print Assumptions C42_transfer.

(** ** What is violated *)
Open Scope string_scope.
Open Scope list_scope.
(** A returning handler for raise: R7RS raises a secondary exception in the context of the
    handler, that is, the outer handler is called. Here the outer handler is not called: the
    program ends *)
Theorem C42_secondary_refuted : exists text,
  text = "(with-exception-handler (lambda (x) (note 'outer) (note 'handled))
            (lambda () (with-exception-handler (lambda (x) (note 'inner) 'returned)
              (lambda () (raise 'x)))))
          (note 'end)" /\
  outcome_of false text = Some (map text_of ["inner"], map text_of ["x"]) /\
  ~ In (text_of "outer") (map text_of ["inner"]).
Proof. eexists. split; [reflexivity|]. split; [vm_compute; reflexivity|]. vm_compute. intros [H|[]]. discriminate H. Qed.
Print Assumptions C42_secondary_refuted.
(** An exit by an exception that nobody handles, at the prompt: the next form is evaluated
    with the handlers that were current at the raise, not with none. raise calls a
    handler of a with-exception-handler that has been left *)
Theorem C42_prompt_refuted : exists first next,
  first = "(with-exception-handler (lambda (x) (note 'stale))
             (lambda () (with-exception-handler (lambda (x) 'returned) (lambda () (raise 'x)))))" /\
  next = "(raise-continuable 'y)" /\
  outcome_of true next = Some ([], map text_of ["y"]) /\
  outcome_of true (first ++ next) = Some (map text_of ["stale"], map text_of ["x"]).
Proof. eexists. eexists. split; [reflexivity|]. split; [reflexivity|]. split; vm_compute; reflexivity. Qed.
Print Assumptions C42_prompt_refuted.
(** The same for parameters: the binding of a parameterize that has been left *)
Theorem C42_prompt_binding_refuted : exists text,
  text = "(define p (make-parameter 'global))
          (dynamic-bind (list p) (list 'inner) (lambda () (raise 'x)))
          (note (p))" /\
  outcome_of true text = Some (map text_of ["inner"], map text_of ["x"]).
Proof. eexists. split; [reflexivity|]. vm_compute. reflexivity. Qed.
Print Assumptions C42_prompt_binding_refuted.

(** ** Examples *)
(** Handlers nest, and a handler runs with the outer handlers *)
Example C42_ex_nested : outcome_of false "(note (with-exception-handler
    (lambda (x) (note 'outer) (note x) 'c)
    (lambda () (with-exception-handler
      (lambda (x) (note 'inner) (note x) (note (raise-continuable 'b)) 'd)
      (lambda () (note (raise-continuable 'a)) (raise-continuable 'e) 'f)))))"
  = Some (map text_of ["inner"; "a"; "outer"; "b"; "c"; "d"; "inner"; "e"; "outer"; "b"; "c"; "f"], []).
Proof. vm_compute. reflexivity. Qed.
(** An exit by a continuation restores the handlers *)
Example C42_ex_escape : outcome_of false "(with-exception-handler (lambda (x) (note 'outer))
    (lambda ()
      (note (call-with-current-continuation (lambda (k) (with-exception-handler (lambda (x) (k 'escaped)) (lambda () (raise 'x))))))
      (raise-continuable 'y)))"
  = Some (map text_of ["escaped"; "outer"], []).
Proof. vm_compute. reflexivity. Qed.
(** An error of the machine is handled like raise *)
Example C42_ex_kernel : outcome_of false "(note (call-with-current-continuation (lambda (k) (with-exception-handler (lambda (x) (k 'handled)) (lambda () ('not-a-procedure))))))"
  = Some (map text_of ["handled"], []).
Proof. vm_compute. reflexivity. Qed.
Example C42_ex_program : program library_primitive (fun i => i < 3) (traced 6) /\ handlers_of (fun x => if (place x =? 1)%nat then Some [VImm 7] else None) [Ext 2 VNil VNil; Ext 1 VNil VNil] = [VImm 7].
Proof. split; [apply C40_program|reflexivity]. Qed.
