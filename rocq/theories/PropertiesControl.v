(** Property theorems about the control libraries, on their compiled code:
    dynamic-wind and continuations (C40). *)
From Coq Require Import String ZArith List Bool Lia.
From Verif Require Import Machine Generator Evaluate LibraryCode Reach Symbolic ContinuationProofs WindSpec TraceProgram ProgramText.
Import ListNotations.

(** The program around the library, in the theorems below: the procedures that the
    library uses are those of LibraryCode.v, the program may have others; an invariant
    [Inv] holds of the program, which keeps it whatever the library allocates and whatever
    the library puts into the registers that it owns. *)
Definition program (proc : nat -> heap -> val -> presult) {ghost} (own : nat -> Prop)
    (Inv : ghost -> heap -> list gval -> list val -> frame -> Prop) : Prop :=
  (forall n h xs, n < length procedures -> proc n h xs = library_primitive n h xs) /\ invariant own Inv.

(** ** C40: continuations and dynamic-wind *)
(** Whenever k is called with a value, the thunks [windup F T] run, where F are the extents of
    the caller; when they have returned, the program goes on in the continuation
    (s, e, c, d) with that value and the extents T *)
Definition resumes proc {ghost} (Inv : ghost -> heap -> list gval -> list val -> frame -> Prop) (k : val) (P : frame) (T : list extent) (s : list val) (e : val) (c : code) (d : dump) : Prop :=
  forall l h g a P' F X xs v s1 e1 c1 d1 aim,
  Inv l h g a P' -> sub P P' -> lst P' xs [v] -> nth_error a 0 = Some X -> chain P' X F ->
  runs proc ghost Inv aim (windup F T) l a P' (fun l' a' P2 => forall h' g' P3, Inv l' h' g' (update a' 0 (spine T)) P3 -> sub P2 P3 ->
    reaches proc (St (v :: s) e c d h' g' (update a' 0 (spine T))) aim) ->
  calls proc k xs s1 e1 c1 d1 h g a aim.

(** call-with-current-continuation calls its argument, in its own continuation, with a
    procedure that takes up that continuation: at any later time, any number of times *)
Theorem C40_call_cc : forall proc ghost own (Inv : ghost -> heap -> list gval -> list val -> frame -> Prop), program proc own Inv -> own 0 ->
  forall l h g a P f xs X T s e c d Q,
  Inv l h g a P -> lib P -> lst P xs [f] -> nth_error a 0 = Some X -> chain P X T ->
  (forall k ks h' P', Inv l h' g a P' -> sub P P' -> resumes proc Inv k P' T s e c d -> lst P' ks [k] -> calls proc f ks s e c d h' g a Q) ->
  calls proc (global "call-with-current-continuation") xs s e c d h g a Q.
Proof.
  intros proc ghost own Inv (Hp & Ok) Own l h g a P f xs X T s e c d Q I L A N C K.
  change (global "call-with-current-continuation") with (VPtr 128). eapply (callcc_runs proc _ _ _ Ok); try eassumption.
  intros k ks h' P' I' U E A'. apply (K k ks h' P' I' U); [|exact A'].
  intros l1 h1 g1 a1 P1 F X1 xs1 v s1 e1 c1 d1 Q1 I1 U1 A1 N1 C1 R.
  eapply (escape_runs proc Hp _ _ _ Ok Own); try eassumption; [eapply lib_up; [|exact L]; eapply sub_trans; eassumption|eapply escape_up; eassumption].
Qed.
Print Assumptions C40_call_cc.

(** The thunks of [windup F T] are those of the specification if as many extents are left as
    are entered, or if nothing is common. Missing from the statement of C40: the other pairs
    of lists of extents, for which it is false (C40_order_refuted). *)
Theorem C40_order_partial : forall (P : frame) v w F T F' T' K, (forall q o o', P q o -> P q o' -> o = o') ->
  chain P v F -> chain P w T -> parted F T F' T' K -> length F' = length T' \/ K = [] ->
  map fst (windup F T) = map after F' ++ rev (map before T').
Proof. intros P v w F T F' T' K U CF CT D H. apply (windup_right F T F' T' K (chain_consistent P v w F T U CF CT) D), H. Qed.
Print Assumptions C40_order_partial.
(** Otherwise the thunks are never those of the specification: all extents of F are left and
    all extents of T entered, the common ones too *)
Theorem C40_order_refuted : forall (P : frame) v w F T F' T' K, (forall q o o', P q o -> P q o' -> o = o') ->
  chain P v F -> chain P w T -> parted F T F' T' K -> length F' <> length T' -> K <> [] ->
  map fst (windup F T) = map after F ++ rev (map before T) /\ map fst (windup F T) <> map after F' ++ rev (map before T').
Proof.
  intros P v w F T F' T' K U CF CT D H N. pose proof (chain_consistent P v w F T U CF CT) as C. split; [exact (windup_wrong F T F' T' K C D H)|].
  intros E. apply (windup_right F T F' T' K C D) in E. destruct E; contradiction.
Qed.
Print Assumptions C40_order_refuted.
(** Any two lists of extents of one heap can be parted *)
Theorem C40_parted : forall (P : frame) v w F T, (forall q o o', P q o -> P q o' -> o = o') ->
  chain P v F -> chain P w T -> exists F' T' K, parted F T F' T' K.
Proof. intros P v w F T U CF CT. apply parted_exists. eapply chain_consistent; eassumption. Qed.
Print Assumptions C40_parted.
(** A before thunk runs in the extents around its own; an after thunk runs inside of its own
    extent, which R7RS excludes *)
Theorem C40_where : forall F T x X, In (x, X) (windup F T) ->
  (exists F0 f F1, F = F0 ++ f :: F1 /\ x = after f /\ X = VPtr (place f)) \/
  (exists T0 t T1, T = T0 ++ t :: T1 /\ x = before t /\ X = spine T1).
Proof. exact windup_where. Qed.
Print Assumptions C40_where.

(** dynamic-wind calls the before thunk x, then y in the extent, then the after thunk z
    outside of it, and returns what y returned *)
Theorem C40_dynamic_wind : forall proc ghost own (Inv : ghost -> heap -> list gval -> list val -> frame -> Prop), program proc own Inv -> own 0 ->
  forall aim l a P F X xs x y z (R : val -> ghost -> list val -> frame -> Prop),
  lib P -> lst P xs [x; y; z] -> nth_error a 0 = Some X -> chain P X F ->
  returns proc ghost Inv aim x VNil l a P (fun _ l1 a1 P1 => nth_error a1 0 = Some X /\
    forall p P2, sub P1 P2 -> chain P2 (VPtr p) (Ext p x z :: F) ->
    returns proc ghost Inv aim y VNil l1 (update a1 0 (VPtr p)) P2 (fun v l2 a2 P3 => nth_error a2 0 = Some (VPtr p) /\
      returns proc ghost Inv aim z VNil l2 (update a2 0 X) P3 (fun _ l3 a3 P4 => R v l3 a3 P4))) ->
  returns proc ghost Inv aim (global "dynamic-wind") xs l a P R.
Proof.
  intros proc ghost own Inv (Hp & Ok) Own aim l a P F X xs x y z R. change (global "dynamic-wind") with (VPtr 127).
  apply (dynamic_wind_runs proc Hp ghost Inv own Ok Own aim).
Qed.
Print Assumptions C40_dynamic_wind.

(** *** The theorems apply: to any number of thunks that log their calls in register 3 *)
Example C40_program : forall n, program library_primitive (fun i => i < 3) (traced n).
Proof. intros n. split; [reflexivity|apply traced_invariant]. Qed.
(** After a transfer of control between any extents with such thunks, the log has grown by
    exactly the thunks of [windup] *)
Example C40_logged : forall n k P T s e c d, resumes library_primitive (traced n) k P T s e c d ->
  forall l h g a P' F X xs v s1 e1 c1 d1, traced n l h g a P' -> sub P P' -> lst P' xs [v] -> nth_error a 0 = Some X -> chain P' X F ->
  (forall x, In x (F ++ T) -> exists i j, i < n /\ j < n /\ before x = logger i /\ after x = logger j) ->
  calls library_primitive k xs s1 e1 c1 d1 h g a (fun st => exists h' g' a' P2,
    st = St (v :: s) e c d h' g' a' /\ traced n (l ++ windup F T) h' g' a' P2).
Proof.
  intros n k P T s e c d R l h g a P' F X xs v s1 e1 c1 d1 I U A N C Th. eapply R; [exact I|exact U|exact A|exact N|exact C|].
  eapply runs_mono; [|apply loggers_run; [|exact (tr_registers _ _ _ _ _ _ I)]].
  - intros l' a' P2 _ -> h' g' P3 I3 U3. apply r_done. exists h', g', (update a' 0 (spine T)), P3. split; [reflexivity|exact I3].
  - apply Forall_forall. intros [x Y] H. cbn [fst]. apply windup_where in H. destruct H as [(F0 & f & F1 & -> & -> & _)|(T0 & t & T1 & -> & -> & _)].
    + destruct (Th f) as (i & j & Hi & Hj & E & E'); [rewrite !in_app_iff; left; right; left; reflexivity|]. exists j. auto.
    + destruct (Th t) as (i & j & Hi & Hj & E & E'); [rewrite !in_app_iff; right; right; left; reflexivity|]. exists i. auto.
Qed.
(** A state of that program, in which three extents are current *)
Definition C40_heap : heap := library_heap ++ map (fun i => OClosure (logger_code i) VNil) (seq 0 6) ++
  [OPair (logger 0) (logger 1); OPair (VPtr (first_logger + 6)) VNil; OPair (logger 2) (logger 3); OPair (VPtr (first_logger + 8)) (VPtr (first_logger + 7))].
Definition C40_extents : list extent := [Ext (first_logger + 9) (logger 2) (logger 3); Ext (first_logger + 7) (logger 0) (logger 1)].
Example C40_state : let P := fun q o => nth_error C40_heap q = Some o in let w := VPtr (first_logger + 9) in
  traced 6 [] C40_heap (cells library_env) [w; VNil; VNil; VNil] P /\ lib P /\ chain P w C40_extents /\
  (forall x, In x C40_extents -> exists i j, i < 6 /\ j < 6 /\ before x = logger i /\ after x = logger j).
Proof.
  intros P w. split; [|split; [|split]].
  - split; [auto| |auto|reflexivity|].
    + intros i Hi. do 6 (destruct i as [|i]; [reflexivity|]). lia.
    + exists VNil, []. split; [reflexivity|]. split; [constructor|intros q o []].
  - intros q o H. unfold P, C40_heap. rewrite nth_error_app1; [exact H|]. apply nth_error_Some. congruence.
  - econstructor; [reflexivity|reflexivity|]. econstructor; [reflexivity|reflexivity|constructor].
  - intros x [<-|[<-|[]]]; [exists 2, 3|exists 0, 1]; cbn; repeat split; lia.
Qed.
(** An outward escape past one extent with another one around: the inner after thunk, then also
    the after and the before thunk of the extent that is not left *)
Example C40_outward : let k := [Ext 1 (VImm 10) (VImm 11)] in let x := Ext 2 (VImm 20) (VImm 21) in
  parted (x :: k) k [x] [] k /\ map fst (windup (x :: k) k) = [VImm 21; VImm 11; VImm 10].
Proof. split; [repeat split; intros ? ? _ []|reflexivity]. Qed.

(** *** The same with the program text *)
Open Scope string_scope.
Open Scope list_scope.
(** An escape from an extent to a point inside of another one: the thunks should be
    b1 b2 a2 a1, but the outer extent is left and entered on the way *)
Theorem C40_program_refuted : exists text,
  text = "(dynamic-wind (lambda () (note 'b1))
            (lambda () (call-with-current-continuation (lambda (k)
              (dynamic-wind (lambda () (note 'b2)) (lambda () (k 1)) (lambda () (note 'a2))))))
            (lambda () (note 'a1)))" /\
  notes text = Some (map text_of ["b1"; "b2"; "a2"; "a1"; "b1"; "a1"]) /\
  notes text <> Some (map text_of ["b1"; "b2"; "a2"; "a1"]).
Proof. eexists. split; [reflexivity|]. split; [vm_compute; reflexivity|vm_compute; discriminate]. Qed.
Print Assumptions C40_program_refuted.
(** A return, an escape to the top level, and a second entry through a continuation *)
Example C40_ex_return : notes "(dynamic-wind (lambda () (note 'b)) (lambda () (note 'x)) (lambda () (note 'a)))" = Some (map text_of ["b"; "x"; "a"]).
Proof. vm_compute. reflexivity. Qed.
Example C40_ex_escape : notes "(call-with-current-continuation (lambda (k)
    (dynamic-wind (lambda () (note 'b1))
      (lambda () (dynamic-wind (lambda () (note 'b2)) (lambda () (k 1)) (lambda () (note 'a2))))
      (lambda () (note 'a1)))))
  (note 'end)" = Some (map text_of ["b1"; "b2"; "a2"; "a1"; "end"]).
Proof. vm_compute. reflexivity. Qed.
Example C40_ex_enter : notes "(define path '())
  (define again #f)
  (dynamic-wind (lambda () (note 'b))
    (lambda () (call-with-current-continuation (lambda (k) (set! again k))) (note 'x))
    (lambda () (note 'a)))
  (if (null? path) (begin (set! path 1) (again 1)))" = Some (map text_of ["b"; "x"; "a"; "b"; "x"; "a"]).
Proof. vm_compute. reflexivity. Qed.
