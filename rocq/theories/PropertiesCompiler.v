(** Property theorems C28 to C34 and C53: the compiler and the machine. *)
From Coq Require Import ZArith List Bool Lia.
From Verif Require Import Machine Generator CoreSemantics CompilerProofs Simulation Evaluate CompilerProgram Discipline MachineProofs.
Import ListNotations.

(** ** An example environment.  Identifiers 0 to 7 are the keywords quote, lambda, if, set!, define, letrec, begin,
    call-with-current-continuation!; 10 to 19 are the procedures of Evaluate.v *)
Definition keywords : list keyword := [KQuote; KLambda; KIf; KSet; KDefine; KLetrec; KBegin].
Definition xkw (x : nat) : option keyword := nth_error keywords x.
Definition xG : genv := GEnv (map (fun n => (n, n)) (seq 0 7) ++ map (fun n => (10 + n, 7 + n)) (seq 0 10)) (map GSyntax keywords ++ map (fun n => GVal (VPtr n)) (seq 0 10)).
Definition xh : heap := map OProcedure (seq 0 10).
Definition xs0 : sstore := Store (map CProcedure (seq 0 10)) (fun x => if Nat.leb 10 x && Nat.ltb x 20 then Some (SLoc (x - 10)) else None).
Definition call (f : form) (xs : list form) : form := FPair 0 f (fold_right (FPair 0) fnil xs).
Definition k (n : nat) : form := FId n.
Definition num (z : Z) : form := FAtom (VImm z).
(** the objects unspecified and undefined *)
Definition un : val := VImm 90.
Definition ud : val := VImm 91.
Lemma xG_names x n : assq x (scope xG) = Some n -> (x < 7 /\ n = x) \/ (10 <= x < 20 /\ n = x - 3).
Proof. do 20 (destruct x as [|x]; [cbn; intro E; try discriminate; injection E as <-; lia|]). discriminate. Qed.
Lemma xG_ok : initial xkw xG xh xs0.
Proof.
  split.
  - split.
    + intros x y n H1 H2. apply xG_names in H1, H2. lia.
    + intros x n H. apply xG_names in H. cbn. lia.
    + intros x w H. unfold xkw in H. do 7 (destruct x as [|x]; [cbn in H; injection H as <-; eexists; split; reflexivity|]). destruct x; discriminate.
    + intros x n w H1 H2. apply xG_names in H1. destruct H1 as [(L & ->)|(L & ->)].
      * do 7 (destruct x as [|x]; [cbn in *; congruence|]). lia.
      * do 10 (destruct x as [|x]; [lia|]). do 10 (destruct x as [|x]; [discriminate|]). lia.
  - reflexivity.
  - intros p x y H. do 10 (destruct p as [|p]; [discriminate|]). destruct p; discriminate.
  - intros x v H. cbn in H. do 10 (destruct x as [|x]; [discriminate|]).
    do 10 (destruct x as [|x]; [cbn in H; injection H as <-; eexists _, _; repeat split; cbn; lia|]). destruct x; discriminate.
Qed.

(** ** C28 Compiled programs compute what the source-level semantics prescribes: for every program of
    the core language and every initial state of data and primitive procedures, if the semantics yields
    values and a store, then evaluating the forms one after the other yields values that agree with
    them to every depth, are identical exactly when they are, and leave agreeing globals *)
Theorem C28_compiler_correct : forall unspecified undefined kw fs es G h s vs s' a,
  initial kw G h s -> Forall2 (denotes unspecified kw []) fs es -> evalp (literals h) standard es s vs s' ->
  exists N, forall fuel, N <= fuel -> exists us G' h',
    evaluate_all unspecified undefined primitive fuel G h a fs = Some (us, G', h') /\
    (forall n, Forall2 (fun v u => same n (locs s') v h' u) vs us) /\
    (forall i j v1 v2 u1 u2, nth_error vs i = Some v1 -> nth_error vs j = Some v2 -> nth_error us i = Some u1 -> nth_error us j = Some u2 -> (v1 = v2 <-> u1 = u2)) /\
    (forall x v, globals s' x = Some v -> exists n u, assq x (scope G') = Some n /\ nth_error (cells G') n = Some (GVal u) /\ forall k, same k (locs s') v h' u).
Proof. exact compiler_correct. Qed.
Print Assumptions C28_compiler_correct.
(** Example: a counter whose state is a variable shared by two calls, with a rest parameter, letrec and set!:
    (define c ((lambda (n) (lambda xs (begin (set! n (cons (car xs) n)) n))) '()))
    (c 1)
    (letrec ((f (lambda (x) (if (null? x) #t (f (cdr x)))))) (f (c 2))) *)
Definition prog : list form :=
  [ call (k 4) [k 30; call (call (k 1) [FPair 0 (k 31) fnil; call (k 1) [k 32; call (k 6) [call (k 3) [k 31; call (k 10) [call (k 11) [k 32]; k 31]]; k 31]]]) [call (k 0) [fnil]]];
    call (k 30) [num 5];
    call (k 5) [FPair 0 (call (k 33) [call (k 1) [FPair 0 (k 34) fnil; call (k 2) [call (k 17) [k 34]; num 1; call (k 33) [call (k 12) [k 34]]]]]) fnil;
                call (k 33) [call (k 30) [num 6]]] ].
Definition prog_exps : list exp :=
  [ Define 30 (App (Lam [31] None [Lam [] (Some 32) [Seq [Assign 31 (App (Var 10) [App (Var 11) [Var 32]; Var 31]); Var 31]]]) [Const VNil]);
    App (Var 30) [Const (VImm 5)];
    Letrec [33] [Lam [34] None [If (App (Var 17) [Var 34]) (Const (VImm 1)) (App (Var 33) [App (Var 12) [Var 34]])]] [App (Var 33) [App (Var 30) [Const (VImm 6)]]] ].
Ltac uses_tac := eexists; split; [reflexivity|]; split; [cbn; intuition discriminate|reflexivity].
Ltac not_uses := let H := fresh in intros ? (? & H & ? & ?); first [discriminate H|injection H as <-; cbn in *; first [discriminate|intuition]].
Ltac denote :=
  match goal with
  | |- denotes _ _ _ (FPair _ (FId 0) _) _ => apply D_quote; uses_tac
  | |- denotes _ _ _ (FPair _ (FId 1) _) _ => eapply D_lambda; [uses_tac|repeat constructor|denote]
  | |- denotes _ _ _ (FPair _ (FId 2) _) _ => eapply D_if; [uses_tac|denote|denote|denote]
  | |- denotes _ _ _ (FPair _ (FId 3) _) _ => eapply D_set; [uses_tac|cbn; tauto|denote]
  | |- denotes _ _ _ (FPair _ (FId 4) _) _ => eapply D_define; [uses_tac|reflexivity|denote]
  | |- denotes _ _ _ (FPair _ (FId 5) _) _ => eapply D_letrec; [uses_tac|denote|denote]
  | |- denotes _ _ _ (FPair _ (FId 6) _) _ => eapply D_begin; [uses_tac|denote]
  | |- denotes _ _ _ (FPair _ _ _) _ => eapply D_call; [not_uses|denote|denote]
  | |- denotes _ _ _ _ _ => constructor
  | |- denotess _ _ _ (FAtom _) _ => constructor
  | |- denotess _ _ _ _ _ => constructor; denote
  | |- denotesb _ _ _ (FPair _ _ (FAtom _)) _ => constructor; denote
  | |- denotesb _ _ _ _ _ => eapply D_then; denote
  | |- denotesl _ _ _ (FAtom _) _ _ => constructor
  | |- denotesl _ _ _ _ _ _ => eapply D_lcons; denote
  end.
Example C28_denotes : Forall2 (denotes un xkw []) prog prog_exps.
Proof.
  unfold prog, prog_exps, call, k, num, fnil. cbn [fold_right]. constructor; [denote|constructor; [denote|constructor; [denote|constructor]]].
Qed.
Ltac std :=
  match goal with
  | |- standard 7 _ [SNil] _ _ => apply (Std_null _ SNil true); split; reflexivity
  | |- standard 7 _ [?v] _ _ => apply (Std_null _ v false); split; discriminate
  | |- standard 1 _ _ _ _ => eapply Std_car; reflexivity
  | |- standard 2 _ _ _ _ => eapply Std_cdr; reflexivity
  | |- standard 0 _ _ _ _ => apply Std_cons
  end.
Ltac ev :=
  match goal with
  | |- evals _ _ _ [] _ _ _ => apply E_none
  | |- evals _ _ _ _ _ _ _ => eapply E_more; [ev|ev]
  | |- evalb _ _ _ [_] _ _ _ => apply E_last; ev
  | |- evalb _ _ _ _ _ _ _ => eapply E_then; [ev|ev|discriminate]
  | |- CoreSemantics.apply _ _ _ _ _ _ _ => first [eapply E_closure; [reflexivity|reflexivity|ev]|eapply E_procedure; [reflexivity|std]]
  | |- eval _ _ _ (Const _) _ _ _ => apply E_const; reflexivity
  | |- eval _ _ _ (Var _) _ _ _ => first [eapply E_local; [reflexivity|reflexivity]|eapply E_global; [reflexivity|reflexivity]]
  | |- eval _ _ _ (Lam _ _ _) _ _ _ => apply E_lam
  | |- eval _ _ _ (App _ _) _ _ _ => eapply E_app; [ev|ev|ev]
  | |- eval _ _ _ (If _ _ _) _ _ _ => first [eapply E_true; [ev|discriminate|ev]|eapply E_false; [ev|ev]]
  | |- eval _ _ _ (Assign _ _) _ _ _ => first [eapply E_assign_local; [ev|reflexivity|reflexivity]|eapply E_assign_global; [ev|reflexivity|reflexivity]]
  | |- eval _ _ _ (Define _ _) _ _ _ => apply E_define; ev
  | |- eval _ _ _ (Letrec _ _ _) _ _ _ => eapply E_letrec; [reflexivity|ev|reflexivity|ev]
  | |- eval _ _ _ (Seq _) _ _ _ => apply E_seq; ev
  end.
Example C28_evaluates : exists vs s', evalp (literals xh) standard prog_exps xs0 vs s' /\ nth_error vs 2 = Some (SImm 1).
Proof.
  eexists _, _. unfold prog_exps. split.
  - eapply P_cons; [ev|eapply P_cons; [ev|eapply P_cons; [ev|apply P_nil]]].
  - reflexivity.
Qed.
Example C28_runs : match evaluate_all un ud primitive 100 xG xh [] prog with Some ([_; VPtr p; u], _, h) => nth_error h p = Some (OPair (VImm 5) VNil) /\ u = VImm 1 | _ => False end.
Proof. vm_compute. split; reflexivity. Qed.

(** ** C29 Stack discipline.  [supplied] says that the next instruction finds the operands it needs on the
    value stack, and the frame or the code it needs on the dump.  For every form whatsoever (not only those of
    the core language) that compiles in an environment where call-with-current-continuation! is not bound, every
    state of a run of any length is supplied; the heap at the start may hold any
    well-formed closures and continuations, and is well-formed again at the end *)
Theorem C29_supplied_partial : forall unspecified undefined fuel G h a f c G' st, heap_ok h -> plain G ->
  compile unspecified undefined fuel G f = GOk c G' -> reach primitive (St [] VNil c [] h (cells G') a) st -> supplied st.
Proof. exact program_supplied. Qed.
Theorem C29_preserved_partial : forall unspecified undefined fuel G h a f u G' h' a', heap_ok h -> plain G ->
  evaluate unspecified undefined primitive fuel G h a f = Some (u, G', h', a') -> heap_ok h' /\ plain G'.
Proof. exact evaluate_ok. Qed.
(** A call puts s, e and c on the dump d; from then on, in a run of any length that does not invoke a
    continuation, either the dump still extends that frame, or the run passes through the state that has
    exactly one more value on s and exactly e, c and d *)
Theorem C29_call_returns : forall proc x xs s e c d h g a c' e' st',
  callee h x = Some (OClosure c' e') -> straight proc (St (x :: xs :: s) e (ICall :: c) d h g a) st' ->
  st' = St (x :: xs :: s) e (ICall :: c) d h g a \/
  (exists d1, st_d st' = d1 ++ DS s :: DE e :: DC c :: d) \/
  exists v h' g' a', straight proc (St (x :: xs :: s) e (ICall :: c) d h g a) (St (v :: s) e c d h' g' a') /\ straight proc (St (v :: s) e c d h' g' a') st'.
Proof.
  intros proc x xs s e c d h g a c' e' st' E S. inversion S as [|st st1 st2 J Es S1]; subst; [left; reflexivity|]. right.
  pose proof Es as Es'. cbn in Es'. rewrite E in Es'. cbn in Es'. injection Es' as <-.
  destruct (straight_returns proc s e c d _ st' S1) as [X|(v & h' & g' & a' & A & B)]; [exists []; reflexivity|left; exact X|].
  right. exists v, h', g', a'. split; [eapply Z_next; eauto|exact B].
Qed.
(** Examples.  The closure of the library's call-with-current-continuation (meevax.ss:68-90: the primitive
    is used in tail position, its operand is a lambda expression) is well-formed *)
Definition ccG : genv := GEnv ((7, 17) :: scope xG) (cells xG ++ [GSyntax KCallCC]).
Example C29_library : exists c, generate un ud 50 ccG
    (call (k 1) [FPair 0 (k 30) fnil; call (k 7) [call (k 1) [FPair 0 (k 31) fnil; call (k 30) [call (k 1) [FPair 0 (k 32) fnil; call (k 31) [k 32]]]]]]) [] [IStop] false
    = GOk c ccG /\ code_ok 0 Stops c.
Proof. eexists. split; [vm_compute; reflexivity|]. repeat constructor. Qed.
Example C29_plain : plain xG /\ heap_ok xh.
Proof.
  split.
  - intro n. do 17 (destruct n as [|n]; [discriminate|]). destruct n; discriminate.
  - intros p o H. do 10 (destruct p as [|p]; [injection H as <-; exact I|]). destruct p; discriminate.
Qed.
Example C29_ex : exists c G' st, compile un ud 50 xG (call (k 10) [num 1; call (call (k 1) [k 31; k 31]) [num 2]]) = GOk c G' /\
  reach primitive (St [] VNil c [] xh (cells G') []) st /\ st_c st = [IReturn] /\ length (st_d st) = 3.
Proof.
  eexists _, _, _. split; [vm_compute; reflexivity|]. split; [do 7 (eapply R_next; [vm_compute; reflexivity|]); apply R_here|]. split; reflexivity.
Qed.
Print Assumptions C29_supplied_partial. Print Assumptions C29_preserved_partial. Print Assumptions C29_call_returns.
(** What is missing: the primitive itself, used elsewhere.  (call-with-current-continuation! (lambda (k) 1)) at top level compiles to a tail
    call, and the return of the callee finds an empty dump *)
Theorem C29_callcc_refuted : exists f c G' st, compile un ud 50 ccG f = GOk c G' /\
  reach primitive (St [] VNil c [] xh (cells G') []) st /\ ~ supplied st /\ step primitive st = Stuck.
Proof.
  exists (call (k 7) [call (k 1) [FPair 0 (k 30) fnil; num 1]]). eexists _, _, _. split; [vm_compute; reflexivity|].
  split; [do 4 (eapply R_next; [vm_compute; reflexivity|]); apply R_here|]. split; [|reflexivity].
  intros (i & c & E & _ & H & _). cbn in E. injection E as <- <-. destruct (H eq_refl) as (s & e & c & d & D). discriminate.
Qed.
Print Assumptions C29_callcc_refuted.

(** ** C30 Tail calls.  The instruction emitted for a tail call leaves the dump as it was *)
Theorem C30_tail_call : forall proc x xs s e c d h g a c' e', callee h x = Some (OClosure c' e') ->
  exists r h', step proc (St (x :: xs :: s) e (ITailCall :: c) d h g a) = Next (St [] r c' d h' g a) /\ nth_error h' (length h) = Some (OPair xs e') /\ r = VPtr (length h).
Proof.
  intros proc x xs s e c d h g a c' e' E. exists (VPtr (length h)), (h ++ [OPair xs e']). cbn. rewrite E. split; [reflexivity|].
  split; [rewrite nth_error_app2, Nat.sub_diag by lia; reflexivity|reflexivity].
Qed.
(** an application in tail position compiles to code that ends in that instruction: at the end of a procedure body *)
Theorem C30_tail_position : forall unspecified undefined fuel G p a d bv c c1 G1, syntax_of G bv a = None ->
  generate unspecified undefined (S fuel) G (FPair p a d) bv c true = GOk c1 G1 ->
  generate unspecified undefined (S fuel) G (FPair p a d) bv [IReturn] true = GOk c1 G1 /\
  exists c2 G2, generate unspecified undefined fuel G a bv [ITailCall] false = GOk c2 G2 /\ operand unspecified undefined fuel G2 d bv c2 = GOk c1 G1.
Proof.
  intros unspecified undefined fuel G p a d bv c c1 G1 S E. cbn [generate] in *. rewrite S in *. split; [exact E|]. apply gbind_ok in E. exact E.
Qed.
(** The dump never holds more entries than the evaluation needs when a call in tail position is
    counted as needing none, a call elsewhere three and a conditional elsewhere one: for every form of the core language that
    the semantics evaluates *)
Theorem C30_space : forall unspecified undefined kw f e G h s v s' n a,
  initial kw G h s -> denotes unspecified kw [] f e -> evaln (literals h) standard false [] e s v s' n ->
  exists N, forall fuel, N <= fuel -> exists c G' M u st,
    compile unspecified undefined fuel G f = GOk c G' /\ execute primitive M c h (cells G') a = Some (Halt u st) /\
    forall st1, reach primitive (St [] VNil c [] h (cells G') a) st1 -> length (st_d st1) <= n.
Proof. exact program_space. Qed.
(** An iteration over a list of any length m needs the space of one call, whatever m is *)
Theorem C30_loop : forall obj loop null cdr x m s l v, loop_state loop null cdr x s l -> chain s v m ->
  exists s', applyn obj standard (SLoc l) [v] s SNil s' 3.
Proof. intros obj loop null cdr x m s l v H C. exact (loop_space obj loop null cdr x m s l v H C). Qed.
(** and an iteration that never ends runs forever in three entries *)
Theorem C30_forever : forall proc h g a, (forall n, run proc n (St [] VNil forever [] h g a) = None) /\
  forall st, reach proc (St [] VNil forever [] h g a) st -> length (st_d st) <= 3.
Proof. exact forever_runs. Qed.
Example C30_forever_code : compile un ud 50 xG (call (k 5) [FPair 0 (call (k 33) [call (k 1) [fnil; call (k 33) []]]) fnil; call (k 33) []]) = GOk forever xG.
Proof. vm_compute. reflexivity. Qed.
Example C30_loop_state : let s := Store (locs xs0 ++ [CClosure [31] None [loop_body 30 17 12 31] []; CPair SNil SNil; CPair SNil (SLoc 11)])
                                       (define_global (globals xs0) 30 (SLoc 10)) in
  loop_state 30 17 12 31 s 10 /\ chain s (SLoc 12) 2.
Proof.
  cbn. split.
  - split; [reflexivity|reflexivity|exists 7; split; reflexivity|exists 2; split; reflexivity|lia].
  - econstructor; [reflexivity|]. econstructor; [reflexivity|]. constructor.
Qed.
Example C30_space_ex : exists v s' n, evaln (literals xh) standard false [] (App (Lam [31] None [App (Var 11) [App (Var 10) [Var 31; Var 31]]]) [Const (VImm 1)]) xs0 v s' n /\ n = 6.
Proof.
  eexists _, _, _. split.
  - eapply N_app; [eapply N_more; [apply N_none|apply N_const; reflexivity]|apply N_lam|].
    eapply N_closure; [reflexivity|reflexivity|]. apply N_last.
    eapply N_app; [eapply N_more; [apply N_none|]| |].
    + eapply N_app; [eapply N_more; [eapply N_more; [apply N_none|eapply N_local; reflexivity]|eapply N_local; reflexivity]|eapply N_global; reflexivity|].
      eapply N_procedure; [reflexivity|apply Std_cons].
    + eapply N_global; reflexivity.
    + eapply N_procedure; [reflexivity|eapply Std_car; reflexivity].
  - reflexivity.
Qed.
Print Assumptions C30_tail_call. Print Assumptions C30_tail_position. Print Assumptions C30_space. Print Assumptions C30_loop. Print Assumptions C30_forever.

(** ** C31 Lexical addresses.  For every stack of formals, every environment whose frames suit them and every name: the
    address found for the name exists iff some formals bind it, and loading it pushes the argument, or the list
    of remaining arguments, of the innermost formals that bind it *)
Theorem C31_lexical_address : forall h bv scs e frames x, Forall2 (fun f sc => formals f (fst sc) (snd sc)) bv scs ->
  env_at h e frames -> Forall2 accepts scs frames ->
  match innermost scs frames x with
  | Some b => exists i, identify_bound 0 bv x = Some i /\
      forall proc s c d g a, exists u, step proc (St s e (load i c) d h g a) = Next (St (u :: s) e c d h g a) /\ value_is h b u
  | None => identify_bound 0 bv x = None
  end.
Proof.
  intros h bv scs e frames x Hf He Ha. pose proof (innermost_address h bv scs Hf e frames x He Ha 0 e eq_refl) as H.
  destruct (innermost scs frames x) as [b|]; [|exact H]. destruct H as (i & u & E & S & V). exists i. split; [exact E|].
  intros proc s c d g a. exists u. split; [|exact V]. destruct i; cbn in S; try discriminate; cbn; rewrite S; reflexivity.
Qed.
(** the heap: arguments (1 2 3) for (x . y) inside arguments (4) for (x) *)
Definition lh : heap := [OPair (VImm 1) (VPtr 1); OPair (VImm 2) (VPtr 2); OPair (VImm 3) VNil; OPair (VImm 4) VNil; OPair (VPtr 3) VNil; OPair (VPtr 0) (VPtr 4)].
Example C31_ex : let bv := [FPair 0 (k 31) (k 32); FPair 0 (k 31) fnil] in
  let scs := [([31], Some 32); ([31], None)] in let frames := [[VImm 1; VImm 2; VImm 3]; [VImm 4]] in
  Forall2 (fun f sc => formals f (fst sc) (snd sc)) bv scs /\ env_at lh (VPtr 5) frames /\ Forall2 accepts scs frames /\
  innermost scs frames 31 = Some (One (VImm 1)) /\ innermost scs frames 32 = Some (Rest [VImm 2; VImm 3]) /\ innermost scs frames 33 = None.
Proof.
  cbn. split; [repeat constructor|]. split; [repeat (econstructor; [reflexivity| |]); repeat (econstructor; [reflexivity|]); constructor|].
  split; [repeat constructor|]. auto.
Qed.
Print Assumptions C31_lexical_address.

(** ** C32 Assignment.  In the source-level semantics an assignment changes the content of one location and
    nothing else ([write], [define_global]); C28 says that compiled programs agree with it, whatever closures share
    the variable.  This is the case of a program that consists of any definitions, then an assignment, then any observations *)
Theorem C32_assignment_partial : forall unspecified undefined kw fs es G h s vs s' a x f e gs ds v s1 ws s2,
  initial kw G h s -> Forall2 (denotes unspecified kw []) fs es -> evalp (literals h) standard es s vs s' ->
  denotes unspecified kw [] f (Assign x e) -> eval (literals h) standard [] e s' v s1 -> globals s1 x <> None ->
  Forall2 (denotes unspecified kw []) gs ds ->
  evalp (literals h) standard ds (Store (locs s1) (fun y => if Nat.eqb y x then Some v else globals s1 y)) ws s2 ->
  exists N, forall fuel, N <= fuel -> exists us G' h',
    evaluate_all unspecified undefined primitive fuel G h a (fs ++ f :: gs) = Some (us, G', h') /\
    forall n, Forall2 (fun v u => same n (locs s2) v h' u) (vs ++ v :: ws) us.
Proof.
  intros unspecified undefined kw fs es G h s vs s' a x f e gs ds v s1 ws s2 Hi Hf He Hd Ha Hx Hg Hw.
  assert (Happ : forall es s vs s', evalp (literals h) standard es s vs s' -> forall es' vs' s'', evalp (literals h) standard es' s' vs' s'' -> evalp (literals h) standard (es ++ es') s (vs ++ vs') s'').
  { clear. induction 1; intros; [assumption|]. cbn. econstructor; eauto. }
  destruct (globals s1 x) as [w|] eqn:Ew; [|contradiction].
  assert (Hall : evalp (literals h) standard (es ++ Assign x e :: ds) s (vs ++ v :: ws) s2).
  { eapply Happ; [exact He|]. econstructor; [eapply E_assign_global; [exact Ha|reflexivity|exact Ew]|exact Hw]. }
  destruct (compiler_correct unspecified undefined kw (fs ++ f :: gs) _ G h s _ s2 a Hi (Forall2_app Hf (Forall2_cons _ _ Hd Hg)) Hall) as (N & HN).
  exists N. intros fuel L. destruct (HN fuel L) as (us & G' & h' & E & S & _). eauto.
Qed.
(** Local and rest variables: in any machine state that represents a source-level store (the states compiled
    programs reach, by C28), the instruction compiled for the assignment to x in one environment is seen by the instruction
    compiled for a reference to y in any environment (of any closure) exactly when both names denote the same location;
    every other reference gives what it gave before *)
Theorem C32_local_partial : forall object kw sc K s h g bv rho ve x l w v u, rel object kw sc K s h g -> env_rel K bv rho ve -> lookup rho x = Some l ->
  nth_error (locs s) l = Some (CVar (Some w)) -> vrel K v u ->
  exists i h', identify_bound 0 bv x = Some i /\
    (forall proc stk c d a, step proc (St (u :: stk) ve (store i c) d h g a) = Next (St (u :: stk) ve c d h' g a)) /\
    forall bv' rho' ve' y l' w', env_rel K bv' rho' ve' -> lookup rho' y = Some l' -> nth_error (locs s) l' = Some (CVar (Some w')) ->
      exists j r, identify_bound 0 bv' y = Some j /\
        (forall proc stk c d a, step proc (St stk ve' (load j c) d h g a) = Next (St (r :: stk) ve' c d h g a)) /\
        (forall proc stk c d a, step proc (St stk ve' (load j c) d h' g a) = Next (St ((if Nat.eqb l' l then u else r) :: stk) ve' c d h' g a)).
Proof. exact assign_exact. Qed.
Print Assumptions C32_local_partial.
Example C32_ex : match evaluate_all un ud primitive 100 xG xh [] (prog ++ [call (k 30) [num 7]]) with
  | Some ([_; _; _; VPtr p], _, h) => exists q r, nth_error h p = Some (OPair (VImm 7) (VPtr q)) /\ nth_error h q = Some (OPair (VImm 6) (VPtr r)) /\ nth_error h r = Some (OPair (VImm 5) VNil)
  | _ => False end.
Proof. vm_compute. eauto. Qed.
Print Assumptions C32_assignment_partial.
(** What is missing: argument lists that are shared.  A call (f . x), as in apply (meevax.ss:109-117), takes the list x itself as the frame of f: an
    assignment to the parameter changes the list.  The program is
    (define l (list 1)) ((lambda (y) (set! y 2)) . l) (car l) *)
Theorem C32_apply_refuted : exists fs us G' h', evaluate_all un ud primitive 100 xG xh [] fs = Some (us, G', h') /\
  fs = [ call (k 4) [k 30; call (k 18) [num 1]]; FPair 0 (call (k 1) [FPair 0 (k 31) fnil; call (k 3) [k 31; num 2]]) (k 30); call (k 11) [k 30] ] /\
  nth_error us 2 = Some (VImm 2).
Proof. eexists _, _, _, _. split; [|split; [reflexivity|]]; [vm_compute; reflexivity|reflexivity]. Qed.
Print Assumptions C32_apply_refuted.

(** ** C33 Continuations.  The object made by load_continuation is never changed; whenever it is called with a list of arguments
    whose first is v, from any state reached after the capture, by any instruction sequence, the machine goes on with the
    stack, environment and dump of the capture, v on the stack, and the code that follows the capturing expression *)
Theorem C33_resume : forall s e c' c d h g a st,
  reach primitive (St s e (ILoadContinuation c' :: c) d h g a) st ->
  forall r xs rest v, In r [ICall; ITailCall] -> (exists cc, st_c st = r :: cc) -> st_s st = VPtr (length h) :: xs :: rest ->
  car (st_h st) xs = Some v -> st <> St s e (ILoadContinuation c' :: c) d h g a ->
  step primitive st = Next (St (v :: s) e c' d (st_h st) (st_g st) (st_a st)).
Proof. intros s e c' c d h g a st. exact (resume primitive primitive_keeps s e c' c d h g a st). Qed.
(** c' is the code that follows the capturing expression *)
Theorem C33_capture : forall unspecified undefined fuel G p a d bv c t c1 G1,
  generate_syntax unspecified undefined (S fuel) KCallCC G (FPair p a d) bv c t = GOk c1 G1 -> exists c2, c1 = ILoadContinuation c :: c2.
Proof. intros unspecified undefined fuel G p a d bv c t c1 G1 E. cbn in E. apply gbind_ok in E. destruct E as (c2 & G2 & _ & E). injection E as <- <-. eauto. Qed.
(** Example: ((lambda (f) (f 7)) (call/cc (lambda (k) k))) would loop; here the continuation is called once with 5 and discards the pending (car 0) *)
Definition callcc : form := call (k 1) [FPair 0 (k 40) fnil; call (k 7) [call (k 1) [FPair 0 (k 41) fnil; call (k 40) [k 41]]]].
Example C33_ex : match evaluate_all un ud primitive 100 ccG xh []
    [ call (k 10) [num 1; call callcc [call (k 1) [FPair 0 (k 42) fnil; call (k 11) [call (k 42) [num 5]]]]] ] with
  | Some ([VPtr p], _, h) => nth_error h p = Some (OPair (VImm 1) (VImm 5)) | _ => False end.
Proof. vm_compute. reflexivity. Qed.
Print Assumptions C33_resume. Print Assumptions C33_capture.
(** What is missing: the arguments that were already evaluated at the time of the capture are shared by all
    returns through the continuation.  In
    (define f (lambda (a b) (begin (set! b (cons a b)) b)))
    (define kk 0)
    (f (call/cc (lambda (c) (begin (set! kk c) 1))) 10)     => (1 . 10)
    (kk 2)                                                  => (2 . 10) expected
    the second call of f sees the assignment of the first one: the value is (2 1 . 10) *)
Theorem C33_reentry_refuted : exists fs us G' h' p q, evaluate_all un ud primitive 200 ccG xh [] fs = Some (us, G', h') /\
  fs = [ call (k 4) [k 50; call (k 1) [FPair 0 (k 51) (FPair 0 (k 52) fnil); call (k 6) [call (k 3) [k 52; call (k 10) [k 51; k 52]]; k 52]]];
         call (k 4) [k 53; num 0];
         call (k 50) [call callcc [call (k 1) [FPair 0 (k 54) fnil; call (k 6) [call (k 3) [k 53; k 54]; num 1]]]; num 10];
         call (k 53) [num 2] ] /\
  nth_error us 3 = Some (VPtr p) /\ nth_error h' p = Some (OPair (VImm 2) (VPtr q)) /\ nth_error h' q = Some (OPair (VImm 1) (VImm 10)).
Proof.
  eexists _, _, _, _, _, _. split; [|split; [reflexivity|]]; [vm_compute; reflexivity|]. split; [reflexivity|]. split; reflexivity.
Qed.
Print Assumptions C33_reentry_refuted.

(** ** C34 Globals.  For every sequence of definitions, assignments, definitions of procedures that refer to a global (perhaps one
    defined later), references and calls in which every name is defined when it is used, the machine returns what a finite map returns *)
Theorem C34_globals_map_partial : forall define set lambda kw, kw define = Some KDefine -> kw set = Some KSet -> kw lambda = Some KLambda ->
  forall unspecified undefined G h s os zs m' a,
  initial kw G h s -> Forall (fun o => forall x, In x (names o) -> kw x = None) os -> gops_spec (fun _ => None) os = Some (zs, m') ->
  exists N, forall fuel, N <= fuel -> exists us G' h',
    evaluate_all unspecified undefined primitive fuel G h a (map (gop_form define set lambda) os) = Some (us, G', h') /\
    Forall2 (fun oz u => gop_value (fst oz) (snd oz) u) (combine os zs) us.
Proof. exact globals_map. Qed.
Example C34_ex : let os := [DefRef 30 31; Def 31 5; Call 30; Set_ 31 6; Call 30; Ref 31; Def 31 7; Call 30] in
  option_map fst (gops_spec (fun _ => None) os) = Some [0; 5; 5; 6; 6; 6; 7; 7]%Z /\
  option_map (fun r => skipn 1 (fst (fst r))) (evaluate_all un ud primitive 100 xG xh [] (map (gop_form 4 3 1) os)) = Some (map VImm [5; 5; 6; 6; 6; 7; 7]%Z).
Proof. vm_compute. auto. Qed.
Print Assumptions C34_globals_map_partial.
(** What is missing: an identifier that was never defined is not reported; its value is the object undefined.
    The same holds for an assignment to it *)
Theorem C34_unbound_refuted : forall unspecified undefined proc G h a x, assq x (scope G) = None -> forall fuel, 2 <= fuel ->
  exists G', evaluate unspecified undefined proc fuel G h a (FId x) = Some (undefined, G', h, a).
Proof. exact unbound. Qed.
Theorem C34_assign_unbound_refuted : exists f G', assq 30 (scope xG) = None /\ f = call (k 3) [k 30; num 1] /\
  evaluate un ud primitive 20 xG xh [] f = Some (VImm 1, G', xh, []).
Proof. eexists _, _. split; [reflexivity|]. split; [reflexivity|]. vm_compute. reflexivity. Qed.
Example C34_unbound_ex : assq 30 (scope xG) = None. Proof. reflexivity. Qed.
Print Assumptions C34_unbound_refuted. Print Assumptions C34_assign_unbound_refuted.

(** ** C53 A procedure called with a number of arguments that its formals do not accept signals an error.  Refuted: surplus arguments
    are ignored, ((lambda (x) x) 1 2) is 1; a missing argument is read beyond the end of the argument list, ((lambda (x) x)) *)
Theorem C53_surplus_refuted : option_map (fun r => fst (fst (fst r))) (evaluate un ud primitive 20 xG xh [] (call (call (k 1) [FPair 0 (k 30) fnil; k 30]) [num 1; num 2])) = Some (VImm 1).
Proof. vm_compute. reflexivity. Qed.
Theorem C53_missing_refuted : exists c G', compile un ud 20 xG (call (call (k 1) [FPair 0 (k 30) fnil; k 30]) []) = GOk c G' /\
  execute primitive 20 c xh (cells G') [] = Some Stuck.
Proof. eexists _, _. split; vm_compute; reflexivity. Qed.
Print Assumptions C53_surplus_refuted. Print Assumptions C53_missing_refuted.
