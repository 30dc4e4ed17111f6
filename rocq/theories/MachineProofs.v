(** Proofs about the machine and the code generator: control space, lexical addresses, continuations, globals. *)
From Coq Require Import ZArith List Bool Lia.
From Verif Require Import Machine Generator CoreSemantics CompilerProofs Simulation CompilerCorrect Evaluate CompilerProgram Discipline.
Import ListNotations.

(** ** Control space *)
Lemma steps_reach proc B st st' : steps proc B st st' -> (forall st1, step proc st' <> Next st1) ->
  forall st2, reach proc st st2 -> length (st_d st2) <= B.
Proof.
  induction 1 as [st L|st st1 st2 L Hs H IH]; intros Hn st3 R; inversion R; subst; auto.
  - exfalso. eapply Hn; eauto.
  - apply IH; [exact Hn|]. congruence.
Qed.
Lemma program_space unspecified undefined kw f e G h s v s' n a :
  initial kw G h s -> denotes unspecified kw [] f e -> evaln (literals h) standard false [] e s v s' n ->
  exists N, forall fuel, N <= fuel -> exists c G' M u st,
    compile unspecified undefined fuel G f = GOk c G' /\ execute primitive M c h (cells G') a = Some (Halt u st) /\
    forall st1, reach primitive (St [] VNil c [] h (cells G') a) st1 -> length (st_d st1) <= n.
Proof.
  intros Hi Hd Hn. pose proof (initial_rel kw G h s Hi) as R.
  destruct (proj1 (generate_spec unspecified undefined kw) [] f e Hd [] WB_nil) as (N & HN).
  assert (W : wf_genv kw G) by (pose proof (r_genv _ _ _ _ _ _ _ _ R) as W; destruct G; exact W).
  destruct (HN N (le_n N) [IStop] false ltac:(discriminate) G W) as (G0 & c0 & E0 & X0 & W0 & S0).
  destruct (proj1 (simulation (literals h) kw (scope G0) primitive standard (standard_sim (literals h) kw (scope G0))) false [] e s v s' n Hn
               [] [IStop] c0 (initial_world h) h (cells G0) a [] VNil [] n [] VNil [IStop] [] S0 (ER_nil _) (rel_gext _ _ _ _ _ _ _ _ R X0 W0) (T_next _ _ _ _) (le_n _))
      as (K1 & h1 & g1 & u & A1 & A2 & A3 & A4).
  destruct (steps_run _ _ _ _ 1 (Halt u (St [u] VNil [IStop] [] h1 g1 a)) A1 eq_refl) as (M & HM).
  exists N. intros fuel Lf. exists c0, G0, M, u, (St [u] VNil [IStop] [] h1 g1 a). split; [|split; [exact HM|]].
  - unfold compile. rewrite (fuel_mono unspecified undefined N fuel G f [] [IStop] false Lf) by (rewrite E0; discriminate). exact E0.
  - eapply steps_reach; [exact A1|]. discriminate.
Qed.

(** a loop over a list of any length needs the space of one call *)
(** [chain s v m]: v is a list of m elements *)
Inductive chain (s : sstore) : sval -> nat -> Prop :=
| Ch_nil : chain s SNil 0
| Ch_cons l a d m : nth_error (locs s) l = Some (CPair a d) -> chain s d m -> chain s (SLoc l) (S m).
Lemma nth_add s c l x : nth_error (locs s) l = Some x -> nth_error (locs (add s c)) l = Some x.
Proof. cbn. intro H. rewrite nth_error_app1; [exact H|]. apply nth_error_Some. congruence. Qed.
Lemma nth_added s c : nth_error (locs (add s c)) (length (locs s)) = Some c.
Proof. cbn. rewrite nth_error_app2, Nat.sub_diag by lia. reflexivity. Qed.
Lemma chain_add s c v m : chain s v m -> chain (add s c) v m.
Proof. induction 1; [constructor|]. econstructor; eauto using nth_add. Qed.
(** (lambda (x) (if (null? x) x (loop (cdr x)))) *)
Definition loop_body (loop null cdr x : nat) : exp := If (App (Var null) [Var x]) (Var x) (App (Var loop) [App (Var cdr) [Var x]]).
Record loop_state (loop null cdr x : nat) (s : sstore) (l : nat) : Prop := {
  lp_loop : globals s loop = Some (SLoc l); lp_body : nth_error (locs s) l = Some (CClosure [x] None [loop_body loop null cdr x] []);
  lp_null : exists p, globals s null = Some (SLoc p) /\ nth_error (locs s) p = Some (CProcedure 7);
  lp_cdr : exists p, globals s cdr = Some (SLoc p) /\ nth_error (locs s) p = Some (CProcedure 2);
  lp_names : x <> loop /\ x <> null /\ x <> cdr }.
Lemma loop_space obj loop null cdr x m : forall s l v, loop_state loop null cdr x s l -> chain s v m ->
  exists s', applyn obj standard (SLoc l) [v] s SNil s' 3.
Proof.
  induction m as [|m IH]; intros s l v [H1 H2 (pn & H3 & H3') (pc & H4 & H4') (N1 & N2 & N3)] C.
  - inversion C; subst. eexists. eapply N_closure; [exact H2|reflexivity|]. apply N_last.
    assert (L : lookup (combine ([x] ++ opt None) [length (locs s)] ++ []) x = Some (length (locs s))) by (cbn; rewrite Nat.eqb_refl; reflexivity).
    assert (Ln : lookup (combine ([x] ++ opt None) [length (locs s)] ++ []) null = None) by (cbn; destruct (Nat.eqb_spec x null); [contradiction|reflexivity]).
    change 3 with (max 3 (cost true 1 0)). eapply N_true.
    + change 3 with (max (max 0 0) (max 0 (cost false 3 0))). eapply N_app.
      * eapply N_more; [apply N_none|]. eapply N_local; [exact L|apply nth_added].
      * eapply N_global; [exact Ln|exact H3].
      * eapply N_procedure; [apply nth_add; exact H3'|]. apply (Std_null _ SNil true). tauto.
    + discriminate.
    + eapply N_local; [exact L|apply nth_added].
  - inversion C as [|l0 a d m' Hl Hc]; subst.
    assert (L : lookup (combine ([x] ++ opt None) [length (locs s)] ++ []) x = Some (length (locs s))) by (cbn; rewrite Nat.eqb_refl; reflexivity).
    assert (Lo : forall y, x <> y -> lookup (combine ([x] ++ opt None) [length (locs s)] ++ []) y = None) by (intros y Hy; cbn; destruct (Nat.eqb_spec x y); [contradiction|reflexivity]).
    set (s1 := add s (CVar (Some (SLoc l0)))).
    assert (P1 : loop_state loop null cdr x s1 l).
    { split; [exact H1|apply nth_add; exact H2|exists pn; split; [exact H3|apply nth_add; exact H3']|exists pc; split; [exact H4|apply nth_add; exact H4']|auto]. }
    destruct (IH s1 l d P1 (chain_add _ _ _ _ Hc)) as (s' & A).
    exists s'. eapply N_closure; [exact H2|reflexivity|]. apply N_last.
    change 3 with (max 3 (cost true 1 3)). eapply N_false.
    + change 3 with (max (max 0 0) (max 0 (cost false 3 0))). eapply N_app.
      * eapply N_more; [apply N_none|]. eapply N_local; [exact L|apply nth_added].
      * eapply N_global; [apply Lo; exact N2|exact H3].
      * eapply N_procedure; [apply nth_add; exact H3'|]. apply (Std_null _ (SLoc l0) false). split; discriminate.
    + change 3 with (max (max 0 3) (max 0 (cost true 3 3))). eapply N_app.
      * eapply N_more; [apply N_none|]. change 3 with (max (max 0 0) (max 0 (cost false 3 0))). eapply N_app.
        -- eapply N_more; [apply N_none|]. eapply N_local; [exact L|apply nth_added].
        -- eapply N_global; [apply Lo; exact N3|exact H4].
        -- eapply N_procedure; [apply nth_add; exact H4'|]. eapply Std_cdr. apply nth_add. exact Hl.
      * eapply N_global; [apply Lo; exact N1|exact H1].
      * exact A.
Qed.

(** a loop that never ends, (letrec ((loop (lambda () (loop)))) (loop)); its code is *)
Definition forever : code :=
  [IDummy; ILoadConstant VNil; ILoadClosure [ILoadConstant VNil; ILoadRelative 1 0; ITailCall]; ICons;
   ILoadClosure [ILoadConstant VNil; ILoadRelative 0 0; ITailCall]; ILetrec; IStop].
Lemma forever_runs proc h g a : (forall n, run proc n (St [] VNil forever [] h g a) = None) /\
  forall st1, reach proc (St [] VNil forever [] h g a) st1 -> length (st_d st1) <= 3.
Proof.
  (* the machine's states, up to the heap *)
  set (D := [DS []; DE VNil; DC [IStop]]).
  set (p0 := length h). set (good := fun h' : heap => nth_error h' p0 = Some (OPair (VPtr (p0 + 2)) VNil) /\ nth_error h' (p0 + 1) = Some (OClosure [ILoadConstant VNil; ILoadRelative 1 0; ITailCall] (VPtr p0))
                     /\ nth_error h' (p0 + 2) = Some (OPair (VPtr (p0 + 1)) VNil) ).
  set (in_body := fun st => exists h' e, good h' /\ nth_error h' e = Some (OPair VNil (VPtr p0)) /\
     (st = St [] (VPtr e) [ILoadConstant VNil; ILoadRelative 1 0; ITailCall] D h' g a \/
      st = St [VNil] (VPtr e) [ILoadRelative 1 0; ITailCall] D h' g a \/
      st = St [VPtr (p0 + 1); VNil] (VPtr e) [ITailCall] D h' g a)).
  set (h3 := [OPair VNil VNil; OClosure [ILoadConstant VNil; ILoadRelative 1 0; ITailCall] (VPtr p0); OPair (VPtr (p0 + 1)) VNil;
              OClosure [ILoadConstant VNil; ILoadRelative 0 0; ITailCall] (VPtr p0)]).
  set (h4 := update (h ++ h3) p0 (OPair (VPtr (p0 + 2)) VNil)).
  set (entry := fun st =>
      st = St [] VNil forever [] h g a \/
      st = St [] (VPtr p0) (skipn 1 forever) [] (h ++ firstn 1 h3) g a \/
      st = St [VNil] (VPtr p0) (skipn 2 forever) [] (h ++ firstn 1 h3) g a \/
      st = St [VPtr (p0 + 1); VNil] (VPtr p0) (skipn 3 forever) [] (h ++ firstn 2 h3) g a \/
      st = St [VPtr (p0 + 2)] (VPtr p0) (skipn 4 forever) [] (h ++ firstn 3 h3) g a \/
      st = St [VPtr (p0 + 3); VPtr (p0 + 2)] (VPtr p0) (skipn 5 forever) [] (h ++ h3) g a \/
      st = St [] (VPtr p0) [ILoadConstant VNil; ILoadRelative 0 0; ITailCall] D h4 g a \/
      st = St [VNil] (VPtr p0) [ILoadRelative 0 0; ITailCall] D h4 g a \/
      st = St [VPtr (p0 + 1); VNil] (VPtr p0) [ITailCall] D h4 g a).
  assert (Hn : forall k, nth_error (h ++ h3) (p0 + k) = nth_error h3 k) by (intro k; unfold p0; rewrite nth_error_app2 by lia; f_equal; lia).
  assert (G4 : good h4 /\ nth_error h4 (p0 + 3) = nth_error h3 3).
  { assert (Hu : forall k, k <> 0 -> nth_error h4 (p0 + k) = nth_error h3 k) by (intros k Hk; unfold h4; rewrite nth_update_neq by lia; apply Hn).
    unfold good. rewrite !Hu by discriminate. cbn. repeat split. unfold h4. apply nth_update_eq. rewrite app_length. cbn. unfold p0. lia. }
  assert (L1 : forall l, VPtr (length (h ++ l)) = VPtr (p0 + length l)) by (intro l; rewrite app_length; reflexivity).
  assert (App : forall l l', (h ++ l) ++ l' = h ++ (l ++ l')) by (intros; symmetry; apply app_assoc).
  assert (Hstep : forall st, entry st \/ in_body st -> length (st_d st) <= 3 /\ exists st', step proc st = Next st' /\ (entry st' \/ in_body st')).
  { intros st [He|Hb].
    - destruct He as [->|[->|[->|[->|[->|[->|[->|[->| ->]]]]]]]]; (split; [cbn; lia|]).
      + eexists. split; [reflexivity|]. left. right. left. cbn. reflexivity.
      + eexists. split; [reflexivity|]. left. do 2 right. left. reflexivity.
      + eexists. split; [reflexivity|]. left. do 3 right. left. cbn. rewrite App, app_length. reflexivity.
      + eexists. split; [reflexivity|]. left. do 4 right. left. cbn. rewrite App, app_length. reflexivity.
      + eexists. split; [reflexivity|]. left. do 5 right. left. cbn. rewrite App, app_length. reflexivity.
      + exists (St [] (VPtr p0) [ILoadConstant VNil; ILoadRelative 0 0; ITailCall] D h4 g a). split; [|left; do 6 right; left; reflexivity].
        cbn. rewrite (Hn 3). cbn. pose proof (Hn 0) as H0. rewrite Nat.add_0_r in H0. rewrite H0. cbn. reflexivity.
      + eexists. split; [reflexivity|]. left. do 7 right. left. reflexivity.
      + eexists. split; [|left; do 8 right; reflexivity].
        cbn. destruct G4 as ((Ga & Gb & Gc) & _). rewrite Ga. cbn. rewrite Gc. reflexivity.
      + destruct G4 as ((Ga & Gb & Gc) & _). eexists. split; [cbn; rewrite Gb; reflexivity|]. right.
        exists (h4 ++ [OPair VNil (VPtr p0)]), (length h4). split; [|split; [rewrite nth_error_app2, Nat.sub_diag by lia; reflexivity|left; reflexivity]].
        unfold good. split; [|split]; (rewrite nth_error_app1; [assumption|apply nth_error_Some; congruence]).
    - destruct Hb as (h' & e & (Ga & Gb & Gc) & He & [->|[->| ->]]); (split; [cbn; lia|]).
      + eexists. split; [reflexivity|]. right. exists h', e. unfold good. auto 8.
      + eexists. split; [cbn; unfold head; cbn; rewrite He; cbn; rewrite Ga; cbn; rewrite Gc; reflexivity|]. right. exists h', e. unfold good. auto 8.
      + eexists. split; [cbn; rewrite Gb; reflexivity|]. right.
        exists (h' ++ [OPair VNil (VPtr p0)]), (length h'). split; [|split; [rewrite nth_error_app2, Nat.sub_diag by lia; reflexivity|left; reflexivity]].
        unfold good. split; [|split]; (rewrite nth_error_app1; [assumption|apply nth_error_Some; congruence]). }
  assert (Hreach : forall st st1, reach proc st st1 -> entry st \/ in_body st -> entry st1 \/ in_body st1).
  { induction 1 as [|st st1 st2 E H IH]; intro I; [exact I|]. apply IH. destruct (Hstep st I) as (_ & st' & E' & I'). congruence. }
  assert (Hrun : forall n st, entry st \/ in_body st -> run proc n st = None).
  { induction n as [|n IH]; intros st I; [reflexivity|]. destruct (Hstep st I) as (_ & st' & E & I'). cbn. rewrite E. apply IH. exact I'. }
  split; [intro n; apply Hrun; left; left; reflexivity|].
  intros st1 R. destruct (Hstep st1 (Hreach _ _ R (or_introl (or_introl eq_refl)))) as (L & _). exact L.
Qed.

(** ** Lexical addresses *)
(** x is the list of vs *)
Inductive list_at (h : heap) : val -> list val -> Prop :=
| LA_nil : list_at h VNil []
| LA_cons p v d vs : nth_error h p = Some (OPair v d) -> list_at h d vs -> list_at h (VPtr p) (v :: vs).
(** e is the environment whose frames are the given argument lists, innermost first *)
Inductive env_at (h : heap) : val -> list (list val) -> Prop :=
| EA_nil : env_at h VNil []
| EA_cons p x e vs fs : nth_error h p = Some (OPair x e) -> list_at h x vs -> env_at h e fs -> env_at h (VPtr p) (vs :: fs).
(** the number of arguments suits the formals *)
Definition accepts (sc : list nat * option nat) (vs : list val) : Prop :=
  match snd sc with None => length vs = length (fst sc) | Some _ => length (fst sc) <= length vs end.
(** what a name is bound to: an argument, or the list of the remaining arguments *)
Inductive bound_to := One (v : val) | Rest (vs : list val).
Fixpoint find (xs : list nat) (rest : option nat) (vs : list val) (x : nat) : option bound_to :=
  match xs, vs with
  | y :: xs, v :: vs => if Nat.eqb y x then Some (One v) else find xs rest vs x
  | [], vs => match rest with Some y => if Nat.eqb y x then Some (Rest vs) else None | None => None end
  | _ :: _, [] => None
  end.
Fixpoint innermost (scs : list (list nat * option nat)) (frames : list (list val)) (x : nat) : option bound_to :=
  match scs, frames with
  | (xs, rest) :: scs, vs :: frames => match find xs rest vs x with Some b => Some b | None => innermost scs frames x end
  | _, _ => None
  end.
Definition value_is (h : heap) (b : bound_to) (u : val) : Prop := match b with One v => u = v | Rest vs => list_at h u vs end.
(** what an address selects, by the instructions load_relative and load_variadic *)
Definition select (h : heap) (e : val) (i : identity) : option val :=
  match i with
  | IdRelative i j => Machine.obind (head h e i) (fun xs => head h xs j)
  | IdVariadic i j => Machine.obind (head h e i) (fun xs => tail h xs j)
  | _ => None
  end.
Lemma find_address h f xs rest : formals f xs rest -> forall vs x a, list_at h a vs -> accepts (xs, rest) vs -> forall i j,
  match find xs rest vs x with
  | Some b => (exists k u, identify_formals i j f x = Some (IdRelative i (j + k)) /\ head h a k = Some u /\ value_is h b u) \/
              (exists k u, identify_formals i j f x = Some (IdVariadic i (j + k)) /\ tail h a k = Some u /\ value_is h b u)
  | None => identify_formals i j f x = None
  end.
Proof.
  induction 1 as [|y|p y d xs r Hf IH]; intros vs x a L A i j.
  - destruct vs; reflexivity.
  - cbn. destruct (Nat.eqb y x); [|reflexivity]. right. exists 0, a. rewrite Nat.add_0_r. auto.
  - destruct L as [|q v t vs Hq Hl]; [destruct r; cbn in A; [lia|discriminate]|].
    cbn [find identify_formals]. destruct (Nat.eqb y x).
    + left. exists 0, v. rewrite Nat.add_0_r. cbn. rewrite Hq. auto.
    + assert (A' : accepts (xs, r) vs) by (unfold accepts in *; destruct r; cbn in *; lia).
      specialize (IH vs x t Hl A' i (S j)). destruct (find xs r vs x) as [b|]; [|exact IH].
      destruct IH as [(k & u & E & H & V)|(k & u & E & H & V)]; [left|right]; exists (S k), u; (split; [rewrite E; do 2 f_equal; lia|]); (split; [|exact V]);
        unfold head in *; cbn; rewrite Hq; exact H.
Qed.
Lemma select_shift h p x e i v : nth_error h p = Some (OPair x e) -> select h e i = Some v ->
  select h (VPtr p) (match i with IdRelative i j => IdRelative (S i) j | IdVariadic i j => IdVariadic (S i) j | i => i end) = Some v.
Proof. intros Hp H. destruct i; cbn in *; try discriminate; unfold head in *; cbn; rewrite Hp; exact H. Qed.
Lemma identify_formals_shift i j f x r : identify_formals i j f x = Some r -> forall i',
  identify_formals i' j f x = Some (match r with IdRelative _ j => IdRelative i' j | IdVariadic _ j => IdVariadic i' j | r => r end).
Proof.
  revert j. induction f as [v|y|p a IHa d IHd]; intros j H i'; cbn in *; [discriminate| |].
  - destruct (Nat.eqb y x); [injection H as <-; reflexivity|discriminate].
  - destruct a as [|y|]; [apply IHd; exact H| |apply IHd; exact H]. destruct (Nat.eqb y x); [injection H as <-; reflexivity|apply IHd; exact H].
Qed.
Lemma innermost_address h : forall bv scs, Forall2 (fun f sc => formals f (fst sc) (snd sc)) bv scs ->
  forall e frames x, env_at h e frames -> Forall2 accepts scs frames -> forall i0 e0,
  tail h e0 i0 = Some e ->
  match innermost scs frames x with
  | Some b => exists i u, identify_bound i0 bv x = Some i /\ select h e0 i = Some u /\ value_is h b u
  | None => identify_bound i0 bv x = None
  end.
Proof.
  induction 1 as [|f (xs & rest) bv scs Hf Hfs IH]; intros e frames x He Ha i0 e0 T; inversion Ha; subst; [reflexivity|].
  cbn in Hf. inversion He as [|p a e' vs fs Hp Hl He']; subst. cbn [innermost identify_bound].
  match goal with H : accepts _ _ |- _ => rename H into A end.
  pose proof (find_address h f xs rest Hf y x a Hl A i0 0) as HF.
  assert (Hh : head h e0 i0 = Some a) by (unfold head; rewrite T; cbn; rewrite Hp; reflexivity).
  destruct (find xs rest y x) as [b|].
  - destruct HF as [(k & u & E & H & V)|(k & u & E & H & V)]; rewrite E; eexists _, u; (split; [reflexivity|]); (split; [|exact V]); cbn; rewrite Hh; exact H.
  - rewrite HF. match goal with H : Forall2 accepts scs _ |- _ => rename H into As end. apply (IH e' l' x He' As (S i0) e0).
    clear -T Hp. revert e0 T. induction i0 as [|i0 IHi]; intros e0 T; [cbn in T; injection T as ->; cbn; rewrite Hp; reflexivity|].
    cbn [tail] in *. destruct (cdr h e0) as [y|]; [|discriminate]. apply IHi. exact T.
Qed.

(** ** Continuations *)
Definition fixed (o : obj) : bool := match o with OPair _ _ => false | _ => true end.
Definition keeps (h h' : heap) : Prop := forall p o, nth_error h p = Some o -> fixed o = true -> nth_error h' p = Some o.
Lemma keeps_refl h : keeps h h. Proof. intros p o H _. exact H. Qed.
Lemma keeps_trans a b c : keeps a b -> keeps b c -> keeps a c. Proof. intros H1 H2 p o H F. auto. Qed.
Lemma keeps_alloc h l : keeps h (h ++ l).
Proof. intros p o H _. rewrite nth_error_app1; [exact H|]. apply nth_error_Some. congruence. Qed.
Lemma keeps_update h p x y o : nth_error h p = Some (OPair x y) -> keeps h (update h p o).
Proof. intros E q o' H F. destruct (Nat.eq_dec p q) as [<-|N]; [rewrite E in H; injection H as <-; discriminate|]. rewrite nth_update_neq by exact N. exact H. Qed.
Lemma keeps_set_car h x v h' : set_car h x v = Some h' -> keeps h h'.
Proof. destruct x; try discriminate. cbn. destruct (nth_error h p) as [[| | | |]|] eqn:E; try discriminate. intro H. injection H as <-. eapply keeps_update; eauto. Qed.
Lemma keeps_set_cdr h x v h' : set_cdr h x v = Some h' -> keeps h h'.
Proof. destruct x; try discriminate. cbn. destruct (nth_error h p) as [[| | | |]|] eqn:E; try discriminate. intro H. injection H as <-. eapply keeps_update; eauto. Qed.
Section Continuations.
Variable proc : nat -> heap -> val -> presult.
Hypothesis proc_keeps : forall n h xs h' v, proc n h xs = PVal h' v -> keeps h h'.
Lemma step_keeps st st' : step proc st = Next st' -> keeps (st_h st) (st_h st').
Proof.
  intro E. destruct st as [s e c d h g a]. cbn [st_h]. unfold step in E. destruct c as [|i c]; [discriminate|]. destruct i; cbn in E.
  all: repeat match type of E with
       | match ?t with _ => _ end = Next _ => let Q := fresh "Q" in destruct t eqn:Q; subst; try discriminate
       end.
  all: injection E as <-; cbn [st_h].
  all: try apply keeps_refl; try apply keeps_alloc; try (eapply proc_keeps; eassumption); try (eapply keeps_set_car; eassumption).
  - rewrite <- app_assoc. apply keeps_alloc.
  - unfold store_relative, Machine.obind in *. destruct (head h e i); [|discriminate]. destruct (tail h v0 j); [|discriminate]. eapply keeps_set_car; eauto.
  - unfold store_variadic, Machine.obind in *. destruct j as [|j].
    + destruct (tail h e i); [|discriminate]. eapply keeps_set_car; eauto.
    + destruct (head h e i); [|discriminate]. destruct (tail h v0 j); [|discriminate]. eapply keeps_set_cdr; eauto.
Qed.
Lemma reach_keeps st st' : reach proc st st' -> keeps (st_h st) (st_h st').
Proof. induction 1; [apply keeps_refl|]. eapply keeps_trans; [eapply step_keeps; eauto|exact IHreach]. Qed.
Lemma resume s e c' c d h g a st2 : reach proc (St s e (ILoadContinuation c' :: c) d h g a) st2 ->
  forall r xs rest v, In r [ICall; ITailCall] -> (exists cc, st_c st2 = r :: cc) -> st_s st2 = VPtr (length h) :: xs :: rest ->
  car (st_h st2) xs = Some v -> st2 <> St s e (ILoadContinuation c' :: c) d h g a ->
  step proc st2 = Next (St (v :: s) e c' d (st_h st2) (st_g st2) (st_a st2)).
Proof.
  intros R r xs rest v Hr (cc & Hc) Hs Hv Hn. inversion R as [|st st1 st2' E R1]; subst; [congruence|].
  cbn in E. injection E as <-. pose proof (reach_keeps _ _ R1 (length h) (OContinuation s e c' d)) as Hk. cbn [st_h] in Hk.
  rewrite nth_error_app1 in Hk by (rewrite app_length; cbn; lia). rewrite nth_error_app2, Nat.sub_diag in Hk by lia. specialize (Hk eq_refl eq_refl).
  destruct st2 as [s2 e2 c2 d2 h2 g2 a2]. cbn in *. subst. destruct Hr as [<-|[<-|[]]]; cbn; rewrite Hk, Hv; reflexivity.
Qed.
End Continuations.
Lemma primitive_keeps n h xs h' v : primitive n h xs = PVal h' v -> keeps h h'.
Proof.
  unfold primitive. intros E.
  destruct n as [|[|[|[|[|[|[|[|[|[|n]]]]]]]]]]; cbn in E;
  repeat match type of E with
         | match ?t with _ => _ end = PVal _ _ => let Q := fresh "Q" in destruct t eqn:Q; subst; try discriminate
         end;
  try (injection E as <- <-; first [apply keeps_refl|apply keeps_alloc|eapply keeps_set_car; eassumption|eapply keeps_set_cdr; eassumption]).
  all: discriminate.
Qed.

(** ** Globals *)
(** top-level operations: (define x z), (set! x z), (define f (lambda () x)), x and (f) *)
Inductive gop := Def (x : nat) (z : Z) | Set_ (x : nat) (z : Z) | DefRef (f x : nat) | Ref (x : nat) | Call (f : nat).
(** the specification: a finite map from names to numbers or to procedures that refer to a name *)
Inductive gent := Num (z : Z) | Refers (x : nat).
Definition gmap := nat -> option gent.
Definition put (m : gmap) (x : nat) (v : gent) : gmap := fun y => if Nat.eqb y x then Some v else m y.
(** the number that the operation returns and the map afterwards; [None] if a name is used that has no definition *)
Definition gop_spec (m : gmap) (o : gop) : option (Z * gmap) :=
  match o with
  | Def x z => Some (z, put m x (Num z))
  | Set_ x z => match m x with Some _ => Some (z, put m x (Num z)) | None => None end
  | DefRef f x => Some (0%Z, put m f (Refers x))
  | Ref x => match m x with Some (Num z) => Some (z, m) | _ => None end
  | Call f => match m f with Some (Refers x) => match m x with Some (Num z) => Some (z, m) | _ => None end | _ => None end
  end.
Fixpoint gops_spec (m : gmap) (os : list gop) : option (list Z * gmap) :=
  match os with
  | [] => Some ([], m)
  | o :: os => match gop_spec m o with
               | Some (z, m) => match gops_spec m os with Some (zs, m) => Some (z :: zs, m) | None => None end
               | None => None
               end
  end.
(** the names an operation mentions *)
Definition names (o : gop) : list nat :=
  match o with Def x _ | Set_ x _ | Ref x | Call x => [x] | DefRef f x => [f; x] end.
Section Globals.
Variable define set lambda : nat.     (* the identifiers bound to the keywords *)
Definition fnil : form := FAtom VNil.
Definition gop_form (o : gop) : form :=
  match o with
  | Def x z => FPair 0 (FId define) (FPair 0 (FId x) (FPair 0 (FAtom (VImm z)) fnil))
  | Set_ x z => FPair 0 (FId set) (FPair 0 (FId x) (FPair 0 (FAtom (VImm z)) fnil))
  | DefRef f x => FPair 0 (FId define) (FPair 0 (FId f) (FPair 0 (FPair 0 (FId lambda) (FPair 0 fnil (FPair 0 (FId x) fnil))) fnil))
  | Ref x => FId x
  | Call f => FPair 0 (FId f) fnil
  end.
(** what the machine returned fits: the definition of a procedure may return anything *)
Definition gop_value (o : gop) (z : Z) (u : val) : Prop := match o with DefRef _ _ => True | _ => u = VImm z end.
Definition gop_exp (o : gop) : exp :=
  match o with
  | Def x z => Define x (Const (VImm z))
  | Set_ x z => Assign x (Const (VImm z))
  | DefRef f x => Define f (Lam [] None [Var x])
  | Ref x => Var x
  | Call f => App (Var f) []
  end.
Variable kw : nat -> option keyword.
Hypothesis kw_define : kw define = Some KDefine.
Hypothesis kw_set : kw set = Some KSet.
Hypothesis kw_lambda : kw lambda = Some KLambda.
Lemma gop_denotes unspecified o : (forall x, In x (names o) -> kw x = None) -> denotes unspecified kw [] (gop_form o) (gop_exp o).
Proof.
  intro H. destruct o; cbn in *.
  - apply D_define; [exists define; auto|auto|constructor].
  - apply D_set; [exists set; auto|auto|constructor].
  - apply D_define; [exists define; auto|auto|]. apply (D_lambda _ _ _ _ _ _ _ _ [] None); [exists lambda; auto|constructor|]. repeat constructor.
  - constructor.
  - apply D_call; [|constructor|constructor]. intros k (y & E & _ & Hk). injection E as <-. rewrite H in Hk by auto. discriminate.
Qed.
Definition agrees (m : gmap) (s : sstore) : Prop := forall x,
  match m x with
  | Some (Num z) => globals s x = Some (SImm z)
  | Some (Refers y) => exists l, globals s x = Some (SLoc l) /\ nth_error (locs s) l = Some (CClosure [] None [Var y] [])
  | None => True
  end.
Lemma gop_eval obj prim m o z m' s : gop_spec m o = Some (z, m') -> agrees m s ->
  exists v s', eval obj prim [] (gop_exp o) s v s' /\ agrees m' s' /\ match o with DefRef _ _ => True | _ => v = SImm z end.
Proof.
  intros E A. destruct o as [x n|x n|f x|x|f]; cbn in E.
  - injection E as <- <-. eexists _, _. split; [apply E_define; constructor; reflexivity|]. split; [|reflexivity].
    intro y. unfold put. cbn. unfold define_global. destruct (Nat.eqb y x); [reflexivity|apply A].
  - destruct (m x) as [v|] eqn:Ex; [|discriminate]. injection E as <- <-.
    assert (Hg : exists w, globals s x = Some w) by (pose proof (A x) as Ax; rewrite Ex in Ax; destruct v; [eauto|destruct Ax as (l & -> & _); eauto]).
    destruct Hg as (w & Hg). eexists _, _. split; [eapply E_assign_global; [constructor; reflexivity|reflexivity|exact Hg]|]. split; [|reflexivity].
    intro y. unfold put. cbn. unfold define_global. destruct (Nat.eqb y x); [reflexivity|apply A].
  - injection E as <- <-. eexists _, _. split; [apply E_define; apply E_lam|]. split; [|exact I].
    intro y. unfold put. cbn [globals locs]. unfold define_global. destruct (Nat.eqb y f).
    + exists (length (locs s)). split; [reflexivity|]. apply nth_added.
    + specialize (A y). destruct (m y) as [[|]|]; [exact A| |exact I]. destruct A as (l & H1 & H2). exists l. split; [exact H1|]. apply nth_add. exact H2.
  - destruct (m x) as [[n|]|] eqn:Ex; try discriminate. injection E as <- <-. pose proof (A x) as Ax. rewrite Ex in Ax.
    exists (SImm n), s. split; [apply E_global; [reflexivity|exact Ax]|auto].
  - destruct (m f) as [[|x]|] eqn:Ef; try discriminate. destruct (m x) as [[n|]|] eqn:Ex; try discriminate. injection E as <- <-.
    pose proof (A x) as Ax. rewrite Ex in Ax. pose proof (A f) as Af. rewrite Ef in Af. destruct Af as (l & H1 & H2).
    exists (SImm n), s. split; [|auto]. eapply E_app; [apply E_none|apply E_global; [reflexivity|exact H1]|].
    eapply E_closure; [exact H2|reflexivity|]. apply E_last. apply E_global; [reflexivity|exact Ax].
Qed.
Lemma gops_eval obj prim os : forall m zs m' s, gops_spec m os = Some (zs, m') -> agrees m s ->
  exists vs s', evalp obj prim (map gop_exp os) s vs s' /\ Forall2 (fun oz v => match fst oz with DefRef _ _ => True | _ => v = SImm (snd oz) end) (combine os zs) vs /\ length zs = length os.
Proof.
  induction os as [|o os IH]; intros m zs m' s E A; cbn in E.
  - injection E as <- <-. exists [], s. repeat constructor.
  - destruct (gop_spec m o) as [(z & m1)|] eqn:E1; [|discriminate]. destruct (gops_spec m1 os) as [(zs1 & m2)|] eqn:E2; [|discriminate].
    injection E as <- <-. destruct (gop_eval obj prim m o z m1 s E1 A) as (v & s1 & H1 & A1 & V1). destruct (IH m1 zs1 m2 s1 E2 A1) as (vs & s2 & H2 & V2 & L2).
    exists (v :: vs), s2. split; [econstructor; eauto|]. split; [constructor; [exact V1|exact V2]|cbn; lia].
Qed.
Lemma globals_map unspecified undefined G h s os zs m' a :
  initial kw G h s -> Forall (fun o => forall x, In x (names o) -> kw x = None) os -> gops_spec (fun _ => None) os = Some (zs, m') ->
  exists N, forall fuel, N <= fuel -> exists us G' h', evaluate_all unspecified undefined primitive fuel G h a (map gop_form os) = Some (us, G', h') /\
    Forall2 (fun oz u => gop_value (fst oz) (snd oz) u) (combine os zs) us.
Proof.
  intros Hi Hn E. destruct (gops_eval (literals h) standard os (fun _ => None) zs m' s E ltac:(intro; exact I)) as (vs & s' & He & Hv & _).
  assert (Hd : Forall2 (denotes unspecified kw []) (map gop_form os) (map gop_exp os)).
  { clear -Hn kw_define kw_set kw_lambda. induction Hn as [|o os H Hn IH]; cbn; constructor; [apply gop_denotes; exact H|exact IH]. }
  destruct (compiler_correct unspecified undefined kw _ _ G h s vs s' a Hi Hd He) as (N & HN).
  exists N. intros fuel L. destruct (HN fuel L) as (us & G' & h' & Eu & Hs & _). exists us, G', h'. split; [exact Eu|].
  specialize (Hs 1). clear -Hv Hs. revert us Hs. induction Hv as [|(o & z) v l vs H Hv IH]; intros us Hs; inversion Hs; subst; constructor; [|apply IH; assumption].
  unfold gop_value. cbn in *. destruct o; subst; cbn in *; auto; destruct y; try contradiction; subst; reflexivity.
Qed.
End Globals.
(** an identifier that was never defined evaluates to the object undefined *)
Lemma unbound unspecified undefined proc G h a x : assq x (scope G) = None -> forall fuel, 2 <= fuel ->
  exists G', evaluate unspecified undefined proc fuel G h a (FId x) = Some (undefined, G', h, a).
Proof.
  intros E fuel L. destruct fuel as [|[|fuel]]; [lia|lia|]. unfold evaluate, compile. cbn [generate]. unfold identify, identify_const. cbn [identify_bound]. rewrite E.
  cbn [load]. unfold execute. cbn [run step cells]. rewrite nth_error_app2, Nat.sub_diag by lia. cbn. eauto.
Qed.

(** ** Assignment to a local variable *)
Section Assignment.
Variable object : nat -> option nat.
Variable kw : nat -> option keyword.
Variable sc : list (nat * nat).
Notation rel := (Simulation.rel object kw sc).
Lemma vrel_fun K s h g v u u' : rel K s h g -> vrel K v u -> vrel K v u' -> u = u'.
Proof. intros R V V'. apply (rel_eq object kw sc K s h g v u v u' R V V'). reflexivity. Qed.
Lemma load_local K s h g bv rho ve x l v : rel K s h g -> env_rel K bv rho ve -> lookup rho x = Some l -> nth_error (locs s) l = Some (CVar (Some v)) ->
  exists i u, identify_bound 0 bv x = Some i /\ vrel K v u /\ forall proc stk c d a, step proc (St stk ve (load i c) d h g a) = Next (St (u :: stk) ve c d h g a).
Proof.
  intros R He Hx Hv. destruct (env_access object kw sc None K s h g bv rho ve x l v R eq_refl He Hx Hv) as (i & p & b & H1 & H2 & H3).
  pose proof (r_cells _ _ _ _ _ _ _ _ R p) as Hcell. unfold cell_ok in Hcell.
  assert (Hpair : exists X Y, nth_error h p = Some (OPair X Y) /\ vrel K v (if b then X else Y)).
  { destruct b; destruct H3 as (z & H3); rewrite H3 in Hcell; destruct Hcell as (X & Y & Hh & HX & HY); exists X, Y; (split; [exact Hh|]);
      [destruct HX as (v' & Hv' & HZ)|destruct HY as (v' & Hv' & HZ)]; rewrite Hv in Hv'; injection Hv' as <-; exact HZ. }
  destruct Hpair as (X & Y & Hh & HX). destruct (read_place h ve i p b X Y H2 Hh) as (u & Hu & Eu). subst u.
  exists i, (if b then X else Y). split; [exact H1|]. split; [exact HX|]. intros. apply Hu.
Qed.
Lemma assign_exact K s h g bv rho ve x l w v u : rel K s h g -> env_rel K bv rho ve -> lookup rho x = Some l ->
  nth_error (locs s) l = Some (CVar (Some w)) -> vrel K v u ->
  exists i h', identify_bound 0 bv x = Some i /\
    (forall proc stk c d a, step proc (St (u :: stk) ve (store i c) d h g a) = Next (St (u :: stk) ve c d h' g a)) /\
    forall bv' rho' ve' y l' w', env_rel K bv' rho' ve' -> lookup rho' y = Some l' -> nth_error (locs s) l' = Some (CVar (Some w')) ->
      exists j r, identify_bound 0 bv' y = Some j /\
        (forall proc stk c d a, step proc (St stk ve' (load j c) d h g a) = Next (St (r :: stk) ve' c d h g a)) /\
        (forall proc stk c d a, step proc (St stk ve' (load j c) d h' g a) = Next (St ((if Nat.eqb l' l then u else r) :: stk) ve' c d h' g a)).
Proof.
  intros R He Hx Hw Hv. destruct (env_access object kw sc None K s h g bv rho ve x l w R eq_refl He Hx Hw) as (i & p & b & H1 & H2 & H3).
  assert (Hh : exists X Y, nth_error h p = Some (OPair X Y)).
  { pose proof (r_cells _ _ _ _ _ _ _ _ R p) as Hcell. unfold cell_ok in Hcell.
    destruct b; destruct H3 as (z & H3); rewrite H3 in Hcell; destruct Hcell as (X & Y & Hh & _); eauto. }
  destruct Hh as (X & Y & Hh).
  exists i, (update h p (set_side (X, Y) b u)). split; [exact H1|]. split; [intros; apply (write_place h ve i p b X Y H2 Hh)|].
  intros bv' rho' ve' y l' w' He' Hy Hw'.
  pose proof (rel_write_var object kw sc None K s h g l p b X Y v u w R H3 Hh Hw Hv) as R'.
  destruct (load_local K s h g bv' rho' ve' y l' w' R He' Hy Hw') as (j & r & J1 & J2 & J3). exists j, r. split; [exact J1|]. split; [exact J3|].
  set (z := if Nat.eqb l' l then v else w').
  assert (Hz : nth_error (locs (write s l (CVar (Some v)))) l' = Some (CVar (Some z))).
  { unfold z. cbn. destruct (Nat.eqb_spec l' l) as [E|N].
    - rewrite E, nth_update_eq by (apply nth_error_Some; congruence). reflexivity.
    - rewrite nth_update_neq by (intro; apply N; congruence). exact Hw'. }
  destruct (load_local K _ _ g bv' rho' ve' y l' z R' He' Hy Hz) as (j' & r' & J1' & J2' & J3').
  rewrite J1 in J1'. injection J1' as <-.
  assert (E : r' = if Nat.eqb l' l then u else r) by (unfold z in J2'; destruct (Nat.eqb l' l); [eapply (vrel_fun K _ _ _ _ _ _ R'); eauto|eapply (vrel_fun K _ _ _ _ _ _ R); eauto]).
  rewrite <- E. exact J3'.
Qed.
End Assignment.
