(** Compiled code runs in step with the source-level semantics. *)
From Coq Require Import ZArith List Bool Lia.
From Verif Require Import Machine Generator CoreSemantics CompilerProofs Simulation.
Import ListNotations.

(** ** Runs of the machine whose dump never holds more than [B] entries *)
Inductive steps (proc : nat -> heap -> val -> presult) (B : nat) : state -> state -> Prop :=
| S_refl st : length (st_d st) <= B -> steps proc B st st
| S_step st st1 st2 : length (st_d st) <= B -> step proc st = Next st1 -> steps proc B st1 st2 -> steps proc B st st2.
Lemma steps_trans proc B a b c : steps proc B a b -> steps proc B b c -> steps proc B a c.
Proof. induction 1; [auto|]. intros. eapply S_step; eauto. Qed.
Lemma steps_one proc B a b : length (st_d a) <= B -> length (st_d b) <= B -> step proc a = Next b -> steps proc B a b.
Proof. intros. eapply S_step; eauto. constructor. auto. Qed.

Section Correct.
Variable object : nat -> option nat.
Variable kw : nat -> option keyword.
Variable sc : list (nat * nat).
Notation rel := (rel object kw sc).
Notation relx := (relx object kw sc).

(** ** Addresses of variables *)
Lemma head_eq h x n : head h x n = match tail h x n with Some y => car h y | None => None end.
Proof. reflexivity. Qed.
Lemma tail_S h x n y : cdr h x = Some y -> tail h x (S n) = tail h y n.
Proof. intro H. cbn. rewrite H. reflexivity. Qed.
Lemma frame_access exc K s h g fs xs r a ls x l : relx exc K s h g -> formals fs xs r -> frame K a (length xs) (is_some r) ls ->
  lookup (combine (xs ++ opt r) ls) x = Some l -> forall i j,
  (exists k v0 p, identify_formals i j fs x = Some (IdRelative i (j + k)) /\ a = Fix v0 /\ tail h v0 k = Some (VPtr p) /\ slot K l p true) \/
  (identify_formals i j fs x = Some (IdVariadic i j) /\ a = At l) \/
  (exists k v0 p, identify_formals i j fs x = Some (IdVariadic i (j + S k)) /\ a = Fix v0 /\ tail h v0 k = Some (VPtr p) /\ slot K l p false).
Proof.
  intros R Hf. revert a ls. induction Hf as [|y|p0 y d xs r Hf IH]; intros a ls Hfr Hl i j; cbn in *.
  - inversion Hfr; subst. cbn in Hl. discriminate.
  - inversion Hfr; subst. cbn in Hl. destruct (Nat.eqb y x); [|discriminate]. injection Hl as <-. right. left. auto.
  - inversion Hfr as [| |p l0 a' n r' ls' Hp Hfr' E1 E2 E3 E4]; subst. cbn in Hl.
    destruct (Nat.eqb y x) eqn:Eyx.
    + injection Hl as <-. left. exists 0, (VPtr p), p. rewrite Nat.add_0_r. cbn. repeat split. exists a'. exact Hp.
    + pose proof (r_cells _ _ _ _ _ _ _ _ R p) as Hc. unfold cell_ok in Hc. rewrite Hp in Hc.
      destruct Hc as (u & w & Hh & _ & Hw).
      assert (Hcdr : cdr h (VPtr p) = Some w) by (cbn; rewrite Hh; reflexivity).
      destruct (IH a' ls' Hfr' Hl i (S j)) as [(k & v0 & q & H1 & -> & H3 & H4)|[(H1 & ->)|(k & v0 & q & H1 & -> & H3 & H4)]]; cbn in Hw.
      * left. exists (S k), (VPtr p), q. rewrite H1, (tail_S _ _ _ _ Hcdr). subst w.
        split; [f_equal; f_equal; lia|]. auto.
      * right. right. exists 0, (VPtr p), p. rewrite H1. split; [f_equal; f_equal; lia|]. cbn. repeat split. eexists. exact Hp.
      * right. right. exists (S k), (VPtr p), q. rewrite H1, (tail_S _ _ _ _ Hcdr). subst w.
        split; [f_equal; f_equal; lia|]. auto.
Qed.
Lemma frame_miss K fs xs r a ls x : formals fs xs r -> frame K a (length xs) (is_some r) ls ->
  lookup (combine (xs ++ opt r) ls) x = None -> forall i j, identify_formals i j fs x = None.
Proof.
  intros Hf. revert a ls. induction Hf as [|y|p0 y d xs r Hf IH]; intros a ls Hfr Hl i j; cbn in *.
  - reflexivity.
  - inversion Hfr; subst. cbn in Hl. destruct (Nat.eqb y x); [discriminate|reflexivity].
  - inversion Hfr as [| |p l0 a' n r' ls' Hp Hfr' E1 E2 E3 E4]; subst. cbn in Hl.
    destruct (Nat.eqb y x); [discriminate|]. eapply IH; eauto.
Qed.
Lemma pend_lookup fs xs ls x : formals fs xs None -> length ls = length xs -> forall i j,
  match lookup (combine (xs ++ opt None) ls) x with
  | Some l => In l ls
  | None => identify_formals i j fs x = None
  end.
Proof.
  intros Hf. remember None as r eqn:Er. revert ls. induction Hf as [|y|p0 y d xs r Hf IH]; intros ls Hl i j; cbn in *; [reflexivity|discriminate|].
  destruct ls as [|l ls]; [discriminate|]. cbn. destruct (Nat.eqb y x); [left; reflexivity|].
  cbn in Hl. specialize (IH Er ls ltac:(lia) i (S j)). cbn in IH. destruct (lookup (combine (xs ++ opt r) ls) x); auto.
Qed.
Lemma lookup_app r1 r2 x : lookup (r1 ++ r2) x = match lookup r1 x with Some l => Some l | None => lookup r2 x end.
Proof. induction r1 as [|(y, l) r1 IH]; cbn; [reflexivity|]. destruct (Nat.eqb y x); auto. Qed.

(** the pair and the side of the pair that hold a variable *)
Definition place (h : heap) (e : val) (i : identity) : option (nat * bool) :=
  match i with
  | IdRelative i j => match obind (head h e i) (fun xs => tail h xs j) with Some (VPtr p) => Some (p, true) | _ => None end
  | IdVariadic i 0 => match tail h e i with Some (VPtr p) => Some (p, true) | _ => None end
  | IdVariadic i (S j) => match obind (head h e i) (fun xs => tail h xs j) with Some (VPtr p) => Some (p, false) | _ => None end
  | _ => None
  end.
Definition shift (i : identity) : identity :=
  match i with IdRelative i j => IdRelative (S i) j | IdVariadic i j => IdVariadic (S i) j | i => i end.
Lemma identify_formals_shift fs x : forall i j, identify_formals (S i) j fs x = option_map shift (identify_formals i j fs x).
Proof.
  induction fs as [v|y|p a IHa d IHd]; intros i j; cbn; [reflexivity|destruct (Nat.eqb y x); reflexivity|].
  destruct a as [v|y|q a1 a2]; try apply IHd. destruct (Nat.eqb y x); [reflexivity|apply IHd].
Qed.
Lemma identify_bound_shift bv x : forall i, identify_bound (S i) bv x = option_map shift (identify_bound i bv x).
Proof.
  induction bv as [|fs bv IH]; intro i; cbn; [reflexivity|]. rewrite identify_formals_shift.
  destruct (identify_formals i 0 fs x) as [r|]; cbn; [reflexivity|apply IH].
Qed.
Lemma place_shift h e e' i : cdr h e = Some e' -> place h e (shift i) = place h e' i.
Proof. intro H. destruct i as [i j|i [|j]| |]; cbn; unfold head; cbn; rewrite ?H; reflexivity. Qed.
Lemma env_access exc K s h g bv rho e x l v : relx exc K s h g -> exc = None -> env_rel K bv rho e -> lookup rho x = Some l ->
  nth_error (locs s) l = Some (CVar (Some v)) ->
  exists i p b, identify_bound 0 bv x = Some i /\ place h e i = Some (p, b) /\ slot K l p b.
Proof.
  intros R Hex He Hl Hv. revert Hl. induction He as [|fs xs r bv ls rho q e a Hf Hq Hfr He IH|fs xs bv ls rho q e Hf Hq Hlen He IH]; intro Hl.
  - discriminate.
  - pose proof (r_cells _ _ _ _ _ _ _ _ R q) as Hc. unfold cell_ok in Hc. rewrite Hq in Hc.
    destruct Hc as (u & w & Hh & Hu & Hw). cbn in Hw. subst w.
    rewrite lookup_app in Hl. cbn [identify_bound].
    destruct (lookup (combine (xs ++ opt r) ls) x) as [l'|] eqn:El.
    + injection Hl as ->.
      destruct (frame_access exc K s h g fs xs r a ls x l R Hf Hfr El 0 0) as [(k & v0 & p & H1 & Ha & H3 & H4)|[(H1 & Ha)|(k & v0 & p & H1 & Ha & H3 & H4)]]; rewrite H1; subst a; cbn in Hu.
      * eexists _, p, true. split; [reflexivity|]. split; [|exact H4]. cbn. rewrite Hh. cbn. rewrite Hu, H3. reflexivity.
      * eexists _, q, true. split; [reflexivity|]. split; [reflexivity|]. eexists. exact Hq.
      * eexists _, p, false. split; [reflexivity|]. split; [|exact H4]. cbn. rewrite Hh. cbn. rewrite Hu, H3. reflexivity.
    + rewrite (frame_miss K fs xs r a ls x Hf Hfr El). rewrite identify_bound_shift.
      destruct (IH Hl) as (i & p & b & H1 & H2 & H3). rewrite H1. cbn.
      exists (shift i), p, b. split; [reflexivity|]. split; [|exact H3].
      rewrite (place_shift h (VPtr q) e); [exact H2|]. cbn. rewrite Hh. reflexivity.
  - pose proof (r_cells _ _ _ _ _ _ _ _ R q) as Hc. unfold cell_ok in Hc. rewrite Hq in Hc.
    rewrite lookup_app in Hl. cbn [identify_bound]. pose proof (pend_lookup fs xs ls x Hf Hlen 0 0) as Hp.
    destruct (lookup (combine (xs ++ opt None) ls) x) as [l'|] eqn:El.
    + injection Hl as ->. rewrite (r_pend _ _ _ _ _ _ _ _ R q ls e l Hq ltac:(congruence) Hp) in Hv. discriminate.
    + rewrite Hp, identify_bound_shift.
      destruct (IH Hl) as (i & p & b & H1 & H2 & H3). rewrite H1. cbn.
      exists (shift i), p, b. split; [reflexivity|]. split; [|exact H3].
      rewrite (place_shift h (VPtr q) e); [exact H2|]. cbn. rewrite Hc. reflexivity.
Qed.
Lemma env_miss K bv rho e x : env_rel K bv rho e -> lookup rho x = None -> identify_bound 0 bv x = None.
Proof.
  induction 1 as [|fs xs r bv ls rho q e a Hf Hq Hfr He IH|fs xs bv ls rho q e Hf Hq Hlen He IH]; intro Hl; [reflexivity| |];
    rewrite lookup_app in Hl; cbn [identify_bound].
  - destruct (lookup (combine (xs ++ opt r) ls) x) as [l'|] eqn:El; [discriminate|].
    rewrite (frame_miss K fs xs r a ls x Hf Hfr El), identify_bound_shift, (IH Hl). reflexivity.
  - pose proof (pend_lookup fs xs ls x Hf Hlen 0 0) as Hp.
    destruct (lookup (combine (xs ++ opt None) ls) x) as [l'|] eqn:El; [discriminate|].
    rewrite Hp, identify_bound_shift, (IH Hl). reflexivity.
Qed.
Lemma read_place h e i p b x y : place h e i = Some (p, b) -> nth_error h p = Some (OPair x y) ->
  exists c, (forall proc s0 c0 d g a, step proc (St s0 e (load i c0) d h g a) = Next (St (c :: s0) e c0 d h g a)) /\ c = if b then x else y.
Proof.
  intros H Hh. destruct i as [i j|i j| |]; cbn in H; try discriminate.
  - unfold obind in H. destruct (head h e i) as [xs|] eqn:E1; [|discriminate].
    destruct (tail h xs j) as [[| |q]|] eqn:E2; try discriminate. injection H as -> <-.
    exists x. split; [|reflexivity]. intros. cbn. rewrite E1. cbn. unfold head. rewrite E2. cbn. rewrite Hh. reflexivity.
  - destruct j as [|j].
    + destruct (tail h e i) as [[| |q]|] eqn:E2; try discriminate. injection H as -> <-.
      exists x. split; [|reflexivity]. intros. cbn. unfold head. rewrite E2. cbn. rewrite Hh. reflexivity.
    + unfold obind in H. destruct (head h e i) as [xs|] eqn:E1; [|discriminate].
      destruct (tail h xs j) as [[| |q]|] eqn:E2; try discriminate. injection H as -> <-.
      exists y. split; [|reflexivity]. intros. cbn [load step]. rewrite E1. cbn [obind].
      assert (Ht : forall n v, tail h v n = Some (VPtr p) -> tail h v (S n) = Some y).
      { induction n as [|n IHn]; intros v Hv; cbn in *.
        - injection Hv as ->. cbn. rewrite Hh. reflexivity.
        - destruct (cdr h v) as [w|]; [|discriminate]. apply IHn. exact Hv. }
      rewrite (Ht j xs E2). reflexivity.
Qed.
Lemma write_place h e i p b x y : place h e i = Some (p, b) -> nth_error h p = Some (OPair x y) ->
  forall proc u s0 c0 d g a, step proc (St (u :: s0) e (store i c0) d h g a) =
                             Next (St (u :: s0) e c0 d (update h p (set_side (x, y) b u)) g a).
Proof.
  intros H Hh proc u s0 c0 d g a. destruct i as [i j|i j| |]; cbn in H; try discriminate.
  - unfold obind in H. destruct (head h e i) as [xs|] eqn:E1; [|discriminate].
    destruct (tail h xs j) as [[| |q]|] eqn:E2; try discriminate. injection H as -> <-.
    cbn. unfold store_relative. rewrite E1. cbn. rewrite E2. cbn. rewrite Hh. reflexivity.
  - destruct j as [|j].
    + destruct (tail h e i) as [[| |q]|] eqn:E2; try discriminate. injection H as -> <-.
      cbn. rewrite E2. cbn. rewrite Hh. reflexivity.
    + unfold obind in H. destruct (head h e i) as [xs|] eqn:E1; [|discriminate].
      destruct (tail h xs j) as [[| |q]|] eqn:E2; try discriminate. injection H as -> <-.
      cbn. rewrite E1. cbn. rewrite E2. cbn. rewrite Hh. reflexivity.
Qed.

(** ** Argument lists *)
(** a list of free pairs, each younger than the rest of the list and outside [lo] *)
Inductive arglist (K : world) (h : heap) (lo : nat) : nat -> val -> list sval -> Prop :=
| AL_nil hi : arglist K h lo hi VNil []
| AL_cons hi p u xs v vs : p < hi -> K p = KFree -> lo <= p -> nth_error h p = Some (OPair u xs) -> vrel K v u ->
    arglist K h lo p xs vs -> arglist K h lo hi (VPtr p) (v :: vs).
Definition touched (K K' : world) (lo hi : nat) : Prop :=
  forall p, K' p = K p \/ K p = KFree /\ lo <= p /\ p < hi /\ forall ls e, K' p <> KPend ls e.
Lemma touched_kle K K' lo hi : touched K K' lo hi -> kle K K'.
Proof. intros H p Hp. destruct (H p) as [E|(E & _)]; [exact E|congruence]. Qed.
Lemma slot_fresh exc K s h g l p b : relx exc K s h g -> length (locs s) <= l -> ~ slot K l p b.
Proof. intros R Hl Hs. destruct (slot_loc _ _ _ _ _ _ _ _ _ _ _ R Hs) as (v & H). apply nth_lt in H. lia. Qed.
Lemma obj_fresh exc K s h g l q : relx exc K s h g -> length (locs s) <= l -> K q <> KObj l.
Proof.
  intros R Hl Hq. pose proof (r_cells _ _ _ _ _ _ _ _ R q) as Hc. unfold cell_ok in Hc. rewrite Hq in Hc.
  destruct Hc as (c & o & H & _). apply nth_lt in H. lia.
Qed.
Lemma touched_set K K1 lo p hi k : touched K K1 lo p -> K p = KFree -> lo <= p -> p < hi -> (forall ls e, k <> KPend ls e) -> touched K (Kset K1 p k) lo hi.
Proof.
  intros H Hp Hk Hlt Hn q. destruct (Nat.eq_dec q p) as [->|N].
  - right. rewrite Kset_eq. auto.
  - rewrite Kset_neq by exact N. destruct (H q) as [E|(E1 & E2 & E3 & E4)]; [auto|]. right. repeat split; auto. lia.
Qed.
Lemma touched_at K K1 lo p : touched K K1 lo p -> K1 p = K p.
Proof. intros H. destruct (H p) as [E|(_ & _ & E & _)]; [exact E|lia]. Qed.
Lemma list_objects K s h g lo hi a vs w s1 : rel K s h g -> arglist K h lo hi a vs -> alloc_list vs s = (w, s1) ->
  exists K', rel K' s1 h g /\ touched K K' lo hi /\ vrel K' w a.
Proof.
  intros R Ha. revert w s1. induction Ha as [hi|hi p u xs v vs Hlt Hp Hk Hh Hv Ha IH]; intros w s1 E; cbn in E.
  - injection E as <- <-. exists K. split; [exact R|]. split; [intro; auto|constructor].
  - destruct (alloc_list vs s) as (w1 & s2) eqn:E1. injection E as <- <-.
    destruct (IH w1 s2 eq_refl) as (K1 & R1 & T1 & V1).
    pose proof (touched_at _ _ _ _ T1) as Hp1. rewrite Hp in Hp1.
    exists (Kset K1 p (KObj (length (locs s2)))). split; [|split].
    + eapply rel_add_obj with (c := CPair v w1) (o := OPair u xs).
      * apply rel_add. exact R1.
      * exact Hp1.
      * exact Hh.
      * apply nth_snoc.
      * constructor; [|exact V1]. eapply vrel_mono; [|exact Hv]. apply kle_wle. eapply touched_kle; eauto.
      * intros q. eapply obj_fresh; [exact R1|lia].
    + apply touched_set; try assumption. discriminate.
    + constructor. apply Kset_eq.
Qed.
Lemma bind_frame xs : forall r vs s ls s1, bind xs r vs s = Some (ls, s1) -> forall K h g lo hi a,
  rel K s h g -> arglist K h lo hi a vs ->
  exists K' fl, rel K' s1 h g /\ touched K K' lo hi /\ frame K' fl (length xs) (is_some r) ls /\ frel K' s1 fl a /\
                (forall l q b, fl = At l -> ~ slot K' l q b).
Proof.
  induction xs as [|x xs IH]; intros r vs s ls s1 E K h g lo hi a R Ha; cbn in E.
  - destruct r as [r|].
    + destruct (alloc_list vs s) as (w & s2) eqn:E1. injection E as <- <-.
      destruct (list_objects K s h g lo hi a vs w s2 R Ha E1) as (K1 & R1 & T1 & V1).
      exists K1, (At (length (locs s2))). split; [apply rel_add; exact R1|]. split; [exact T1|].
      split; [constructor|]. split.
      * cbn. exists w. split; [apply nth_snoc|exact V1].
      * intros l q b E. injection E as <-. eapply slot_fresh; [exact R1|lia].
    + destruct vs; [|discriminate]. injection E as <- <-. inversion Ha; subst.
      exists K, (Fix VNil). split; [exact R|]. split; [intro; auto|]. split; [constructor|]. split; [reflexivity|discriminate].
  - destruct vs as [|v vs]; [discriminate|]. destruct (bind xs r vs s) as [(ls' & s2)|] eqn:E1; [|discriminate].
    injection E as <- <-. inversion Ha as [|hi' p u xs' v' vs' Hlt Hp Hk Hh Hv Ha' E2 E3 E4]; subst.
    destruct (IH r vs s ls' s2 E1 K h g lo p xs' R Ha') as (K1 & fl & R1 & T1 & F1 & V1 & N1).
    pose proof (touched_at _ _ _ _ T1) as Hp1. rewrite Hp in Hp1.
    set (K2 := Kset K1 p (KCell (At (length (locs s2))) fl)).
    assert (L : wle K1 K2) by (apply kle_wle, kle_set, Hp1).
    assert (R2 : rel K2 (add s2 (CVar (Some v))) h g).
    { apply rel_add_cell with (x := u) (y := xs').
      - apply rel_add. exact R1.
      - exact Hp1.
      - exact Hh.
      - cbn. exists v. split; [apply nth_snoc|]. eapply vrel_mono; [|exact Hv]. apply kle_wle. eapply touched_kle; eauto.
      - destruct fl as [y|l]; cbn in *; [exact V1|]. destruct V1 as (w & H1 & H2). exists w. auto using nth_app_l.
      - intros l q b [E|E].
        + injection E as <-. eapply slot_fresh; [exact R1|lia].
        + apply N1. exact E.
      - intros l E E'. injection E as <-. subst fl. cbn in V1. destruct V1 as (w & H1 & _). apply nth_lt in H1. lia. }
    exists K2, (Fix (VPtr p)). split; [exact R2|]. split; [apply touched_set; try assumption; discriminate|]. split.
    + cbn [length]. econstructor; [apply Kset_eq|]. eapply frame_mono; eauto.
    + split; [reflexivity|discriminate].
Qed.
Lemma initialise_other ls : forall vs s l, ~ In l ls -> nth_error (locs (initialise ls vs s)) l = nth_error (locs s) l.
Proof.
  induction ls as [|l0 ls IH]; intros [|v vs] s l Hn; cbn; try reflexivity.
  rewrite nth_update_neq; [apply IH|]; intro; apply Hn; cbn; auto.
Qed.
Lemma init_frame ls : forall vs s q K h g lo hi a, relx (Some q) K s h g -> arglist K h lo hi a vs -> length vs = length ls -> NoDup ls ->
  (forall l, In l ls -> nth_error (locs s) l = Some (CVar None)) ->
  (forall l p ls' e, In l ls -> K p = KPend ls' e -> p <> q -> ~ In l ls') ->
  exists K', relx (Some q) K' (initialise ls vs s) h g /\ touched K K' lo hi /\ frame K' (Fix a) (length ls) false ls.
Proof.
  induction ls as [|l ls IH]; intros vs s q K h g lo hi a R Ha Hlen Hnd Hnone Hpend; destruct vs as [|v vs]; try discriminate; cbn [initialise].
  - exists K. split; [exact R|]. split; [intro; auto|constructor].
  - inversion Ha as [|hi' p u xs' v' vs' Hlt Hp Hk Hh Hv Ha' E2 E3 E4]; subst. inversion Hnd as [|l' ls' Hni Hnd']; subst.
    destruct (IH vs s q K h g lo p xs' R Ha' ltac:(cbn in Hlen; lia) Hnd' (fun l0 H => Hnone l0 (or_intror H)) (fun l0 p0 ls0 e0 H => Hpend l0 p0 ls0 e0 (or_intror H)))
      as (K1 & R1 & T1 & F1).
    pose proof (touched_at _ _ _ _ T1) as Hp1. rewrite Hp in Hp1.
    set (K2 := Kset K1 p (KCell (At l) (Fix xs'))).
    assert (L : wle K1 K2) by (apply kle_wle, kle_set, Hp1).
    exists K2. split; [|split].
    + apply rel_init_var with (x := u) (y := xs').
      * exact R1.
      * exact Hp1.
      * exact Hh.
      * rewrite initialise_other by exact Hni. apply Hnone. left. reflexivity.
      * intros p' ls' e' Hp' Hex. apply (Hpend l p' ls' e'); [left; reflexivity| |intros ->; apply Hex; reflexivity].
        destruct (T1 p') as [E|(_ & _ & _ & E)]; [rewrite <- E; exact Hp'|]. exfalso. eapply E. exact Hp'.
      * eapply vrel_mono; [|exact Hv]. apply kle_wle. eapply touched_kle; eauto.
      * reflexivity.
    + apply touched_set; try assumption. discriminate.
    + cbn [length]. econstructor; [apply Kset_eq|]. eapply frame_mono; eauto.
Qed.
Lemma reserve_spec n : forall s ls s0, reserve n s = (ls, s0) ->
  length ls = n /\ ls = seq (length (locs s)) n /\ locs s0 = locs s ++ repeat (CVar None) n /\ globals s0 = globals s.
Proof.
  induction n as [|n IH]; intros s ls s0 E; cbn in E.
  - injection E as <- <-. cbn. rewrite app_nil_r. auto.
  - destruct (reserve n (add s (CVar None))) as (ls' & s1) eqn:E1. injection E as <- <-.
    destruct (IH _ _ _ E1) as (H1 & H2 & H3 & H4). cbn in *. rewrite app_length in H2. cbn in H2. rewrite Nat.add_comm in H2. cbn in H2.
    split; [congruence|]. split; [f_equal; exact H2|]. split; [|exact H4]. rewrite H3, <- app_assoc. reflexivity.
Qed.
Lemma rel_reserve n : forall s ls s0 exc K h g, reserve n s = (ls, s0) -> relx exc K s h g -> relx exc K s0 h g.
Proof.
  induction n as [|n IH]; intros s ls s0 exc K h g E R; cbn in E; [injection E as <- <-; exact R|].
  destruct (reserve n (add s (CVar None))) as (ls' & s1) eqn:E1. injection E as <- <-.
  eapply IH; [exact E1|]. apply rel_add. exact R.
Qed.
Lemma nth_repeat_app {A} (l : list A) x n k : length l <= k < length l + n -> nth_error (l ++ repeat x n) k = Some x.
Proof.
  intros H. rewrite nth_error_app2 by lia. destruct (nth_error (repeat x n) (k - length l)) as [y|] eqn:E.
  - apply nth_error_In, repeat_spec in E. congruence.
  - apply nth_error_None in E. rewrite repeat_length in E. lia.
Qed.

(** ** How the machine state grows *)
(** what was free and older than [lo] is free and unchanged *)
Record ext (lo : nat) (K : world) (h : heap) (K' : world) (h' : heap) : Prop := {
  x_kle : kle K K';
  x_len : length h <= length h';
  x_free : forall p, p < lo -> p < length h -> K p = KFree -> K' p = KFree /\ nth_error h' p = nth_error h p
}.
Lemma ext_refl lo K h : ext lo K h K h.
Proof. split; auto using kle_refl. Qed.
Lemma ext_trans lo lo' K h K1 h1 K2 h2 : ext lo K h K1 h1 -> ext lo' K1 h1 K2 h2 -> lo <= lo' -> ext lo K h K2 h2.
Proof.
  intros [A1 B1 C1] [A2 B2 C2] L. split; [eapply kle_trans; eauto|lia|].
  intros p Hp Hh Hk. destruct (C1 p Hp Hh Hk) as (D1 & D2). destruct (C2 p ltac:(lia) ltac:(lia) D1) as (D3 & D4).
  split; [exact D3|congruence].
Qed.
Lemma ext_weak lo lo' K h K1 h1 : ext lo K h K1 h1 -> lo' <= lo -> ext lo' K h K1 h1.
Proof. intros [A B C] L. split; auto. intros p Hp. apply C. lia. Qed.
Lemma ext_alloc lo K h o : ext lo K h K (h ++ [o]).
Proof.
  split; [apply kle_refl|rewrite app_length; lia|]. intros p _ Hp Hk. split; [exact Hk|]. apply nth_error_app1. exact Hp.
Qed.
Lemma ext_touched lo hi K h K' : touched K K' lo hi -> ext lo K h K' h.
Proof.
  intros T. split; [eapply touched_kle; eauto|lia|]. intros p Hp _ Hk. split; [|reflexivity].
  destruct (T p) as [E|(_ & E & _)]; [congruence|lia].
Qed.
Lemma ext_set lo K h p k : K p = KFree -> lo <= p -> ext lo K h (Kset K p k) h.
Proof.
  intros H L. split; [apply kle_set; exact H|lia|]. intros q Hq _ Hk. split; [|reflexivity]. rewrite Kset_neq; [exact Hk|lia].
Qed.
Lemma ext_update lo K h p o : K p <> KFree -> ext lo K h K (update h p o).
Proof.
  intros H. split; [apply kle_refl|rewrite length_update; lia|]. intros q _ _ Hk. split; [exact Hk|].
  apply nth_update_neq. intros ->. contradiction.
Qed.
Lemma ext_wle lo K h K' h' : ext lo K h K' h' -> wle K K'.
Proof. intros X. apply kle_wle. apply X. Qed.
Lemma arglist_ext K h K' h' lo hi xs vs : ext hi K h K' h' -> hi <= length h -> arglist K h lo hi xs vs -> arglist K' h' lo hi xs vs.
Proof.
  intros X L Ha. revert X L. induction Ha as [hi|hi p u xs v vs Hlt Hp Hk Hh Hv Ha IH]; intros X L; [constructor|].
  destruct (x_free _ _ _ _ _ X p Hlt ltac:(lia) Hp) as (D1 & D2).
  econstructor; [exact Hlt|exact D1|exact Hk|rewrite D2; exact Hh|eapply vrel_mono; [eapply ext_wle; eauto|exact Hv]|].
  apply IH; [|lia]. eapply ext_weak; [exact X|lia].
Qed.
Lemma arglist_lo K h lo lo' hi xs vs : lo' <= lo -> arglist K h lo hi xs vs -> arglist K h lo' hi xs vs.
Proof. intros L. induction 1; [constructor|]. econstructor; eauto. lia. Qed.
Lemma arglist_alloc K h lo hi xs vs o : arglist K h lo hi xs vs -> arglist K (h ++ [o]) lo hi xs vs.
Proof. induction 1; [constructor|]. econstructor; eauto. apply nth_app_l. assumption. Qed.

(** where the machine goes on after an expression: to the rest of the code, or to the caller *)
Inductive target : bool -> list val -> val -> code -> dump -> list val -> val -> code -> dump -> Prop :=
| T_next s e c d : target false s e c d s e c d
| T_return s e s' e' c' d' : target true s e [IReturn] (DS s' :: DE e' :: DC c' :: d') s' e' c' d'.

Section Run.
Variable proc : nat -> heap -> val -> presult.
Variable prim : nat -> sstore -> list sval -> sval -> sstore -> Prop.
(** the primitive procedures of the machine implement those of the source-level semantics *)
Hypothesis prim_sim : forall n s vs v s1 K h g lo hi xs,
  prim n s vs v s1 -> rel K s h g -> arglist K h lo hi xs vs -> lo <= hi <= length h ->
  exists K' h' u, proc n h xs = PVal h' u /\ ext lo K h K' h' /\ rel K' s1 h' g /\ vrel K' v u.
Notation steps := (steps proc).

Lemma finish t stk ve c d s' e' c' d' u h g a B : target t stk ve c d s' e' c' d' -> length d <= B ->
  steps B (St (u :: stk) ve c d h g a) (St (u :: s') e' c' d' h g a).
Proof.
  intros T L. destruct T as [|s e s' e' c' d']; [constructor; exact L|].
  apply steps_one; cbn in *; [lia|lia|reflexivity].
Qed.

Definition P_eval (t : bool) (rho : CoreSemantics.env) (e : exp) (s : sstore) (v : sval) (s' : sstore) (n : nat) : Prop :=
  forall bv c c1 K h g a stk ve d B S1 E1 C1 D1,
  code_for kw sc bv e t c c1 -> env_rel K bv rho ve -> rel K s h g -> target t stk ve c d S1 E1 C1 D1 -> length d + n <= B ->
  exists K' h' g' u, steps B (St stk ve c1 d h g a) (St (u :: S1) E1 C1 D1 h' g' a) /\
    ext (length h) K h K' h' /\ rel K' s' h' g' /\ vrel K' v u.
Definition P_evals (rho : CoreSemantics.env) (es : list exp) (s : sstore) (vs : list sval) (s' : sstore) (n : nat) : Prop :=
  forall bv c c1 K h g a stk ve d B,
  code_args kw sc bv es c c1 -> env_rel K bv rho ve -> rel K s h g -> length d + n <= B ->
  exists K' h' g' xs, steps B (St stk ve c1 d h g a) (St (xs :: stk) ve c d h' g' a) /\
    ext (length h) K h K' h' /\ rel K' s' h' g' /\ arglist K' h' (length h) (length h') xs vs.
Definition P_evalb (t : bool) (rho : CoreSemantics.env) (es : list exp) (s : sstore) (v : sval) (s' : sstore) (n : nat) : Prop :=
  forall bv c c1 K h g a stk ve d B S1 E1 C1 D1,
  code_body kw sc bv es t c c1 -> env_rel K bv rho ve -> rel K s h g -> target t stk ve c d S1 E1 C1 D1 -> length d + n <= B ->
  exists K' h' g' u, steps B (St stk ve c1 d h g a) (St (u :: S1) E1 C1 D1 h' g' a) /\
    ext (length h) K h K' h' /\ rel K' s' h' g' /\ vrel K' v u.
Definition P_apply (f : sval) (vs : list sval) (s : sstore) (v : sval) (s' : sstore) (n : nat) : Prop :=
  forall (t : bool) K h g a lo hi x xs stk ve c d B S1 E1 C1 D1,
  rel K s h g -> vrel K f x -> arglist K h lo hi xs vs -> lo <= hi <= length h ->
  target t stk ve (if t then [IReturn] else c) d S1 E1 C1 D1 -> length d + cost t 3 n <= B ->
  exists K' h' g' u, steps B (St (x :: xs :: stk) ve (if t then [ITailCall] else ICall :: c) d h g a) (St (u :: S1) E1 C1 D1 h' g' a) /\
    ext lo K h K' h' /\ rel K' s' h' g' /\ vrel K' v u.

Lemma target_tail t stk ve c d S1 E1 C1 D1 : target t stk ve c d S1 E1 C1 D1 -> t = true -> c = [IReturn].
Proof. intros []; [discriminate|reflexivity]. Qed.

Scheme evaln_mind := Minimality for evaln Sort Prop
  with evalsn_mind := Minimality for evalsn Sort Prop
  with evalbn_mind := Minimality for evalbn Sort Prop
  with applyn_mind := Minimality for applyn Sort Prop.
Combined Scheme evaln_mutind from evaln_mind, evalsn_mind, evalbn_mind, applyn_mind.

Lemma literal_rel K s h g v w : rel K s h g -> literal object v = Some w -> vrel K w v.
Proof.
  intros R H. destruct v as [|z|p]; cbn in H.
  - injection H as <-. constructor.
  - injection H as <-. constructor.
  - destruct (object p) as [l|] eqn:E; [|discriminate]. injection H as <-. constructor. eapply (r_lit _ _ _ _ _ _ _ _ R); eauto.
Qed.
Lemma global_cell K s h g x v : rel K s h g -> globals s x = Some v -> kw x = None.
Proof.
  intros R H. destruct (r_globals _ _ _ _ _ _ _ _ R x v H) as (n & u & H1 & H2 & _).
  destruct (kw x) as [k|] eqn:E; [|reflexivity]. destruct (wg_kw _ _ (r_genv _ _ _ _ _ _ _ _ R) x k E) as (m & H3 & H4).
  cbn in *. congruence.
Qed.
Lemma truth K v x : vrel K v x -> val_eqb x f_ = true <-> v = SImm 0.
Proof.
  intros [|z|l p H]; cbn; split; intro E; try discriminate.
  - apply Z.eqb_eq in E. congruence.
  - injection E as ->. reflexivity.
Qed.

Theorem simulation :
  (forall t rho e s v s' n, evaln object prim t rho e s v s' n -> P_eval t rho e s v s' n) /\
  (forall rho es s vs s' n, evalsn object prim rho es s vs s' n -> P_evals rho es s vs s' n) /\
  (forall t rho es s v s' n, evalbn object prim t rho es s v s' n -> P_evalb t rho es s v s' n) /\
  (forall f vs s v s' n, applyn object prim f vs s v s' n -> P_apply f vs s v s' n).
Proof.
  apply evaln_mutind.
  - (* constant *) intros t r v s w Hl bv c c1 K h g a stk ve d B S1 E1 C1 D1 Hc He R T L. inversion Hc; subst.
    exists K, h, g, v. split; [|split; [apply ext_refl|split; [exact R|eapply literal_rel; eauto]]].
    eapply S_step; [cbn; lia|reflexivity|]. eapply finish; [exact T|lia].
  - (* local variable *) intros t r x l s v Hx Hv bv c c1 K h g a stk ve d B S1 E1 C1 D1 Hc He R T L. inversion Hc as [|bv' x' t' c' i Hi| | | | | | |]; subst.
    destruct (env_access None K s h g bv r ve x l v R eq_refl He Hx Hv) as (i' & p & b & H1 & H2 & H3).
    destruct Hi as [Hi|(Hi & _)]; [|congruence].
    assert (i' = i) by congruence. subst i'.
    pose proof (r_cells _ _ _ _ _ _ _ _ R p) as Hcell. unfold cell_ok in Hcell.
    assert (Hpair : exists X Y, nth_error h p = Some (OPair X Y) /\ vrel K v (if b then X else Y)).
    { destruct b; destruct H3 as (z & H3); rewrite H3 in Hcell; destruct Hcell as (X & Y & Hh & HX & HY); exists X, Y; (split; [exact Hh|]);
        [destruct HX as (v' & Hv' & HZ)|destruct HY as (v' & Hv' & HZ)]; rewrite Hv in Hv'; injection Hv' as <-; exact HZ. }
    destruct Hpair as (X & Y & Hh & HX). destruct (read_place h ve i p b X Y H2 Hh) as (u & Hu & Eu). subst u.
    exists K, h, g, (if b then X else Y). split; [|split; [apply ext_refl|split; [exact R|exact HX]]].
    eapply S_step; [cbn; lia|apply Hu|]. eapply finish; [exact T|lia].
  - (* global variable *) intros t r x s v Hx Hv bv c c1 K h g a stk ve d B S1 E1 C1 D1 Hc He R T L. inversion Hc as [|bv' x' t' c' i Hi| | | | | | |]; subst.
    pose proof (env_miss K bv r ve x He Hx) as Hm.
    destruct Hi as [Hi|(_ & n & Hn & ->)]; [congruence|].
    destruct (r_globals _ _ _ _ _ _ _ _ R x v Hv) as (n' & u & H1 & H2 & H3). assert (n' = n) by congruence. subst n'.
    exists K, h, g, u. split; [|split; [apply ext_refl|split; [exact R|exact H3]]].
    eapply S_step; [cbn; lia|cbn; rewrite H2; reflexivity|]. eapply finish; [exact T|lia].
  - (* lambda *) intros t r xs rest b s bv c c1 K h g a stk ve d B S1 E1 C1 D1 Hc He R T L. inversion Hc as [| |bv' fs xs' r' b' t' k c' Hf Hcb| | | | | |]; subst.
    assert (Hfree : K (length h) = KFree) by (eapply rel_free; eauto).
    exists (Kset K (length h) (KObj (length (locs s)))), (h ++ [OClosure c' ve]), g, (VPtr (length h)).
    split; [eapply S_step; [cbn; lia|reflexivity|]; eapply finish; [exact T|lia]|]. split; [|split].
    + apply (ext_trans (length h) (length h) _ _ K (h ++ [OClosure c' ve])); [apply ext_alloc|apply ext_set; [exact Hfree|apply le_n]|apply le_n].
    + eapply rel_add_obj with (c := CClosure xs rest b r) (o := OClosure c' ve).
      * apply rel_add, rel_alloc. exact R.
      * exact Hfree.
      * apply nth_snoc.
      * apply nth_snoc.
      * econstructor; eauto.
      * intros q. eapply obj_fresh; [exact R|lia].
    + constructor. apply Kset_eq.
  - (* application *) intros t r e args s vs s1 v s2 u s3 n1 n2 n3 _ IHargs _ IHe _ IHf bv c c1 K h g a stk ve d B S1 E1 C1 D1 Hc He R T L.
    inversion Hc as [| | |bv' e' args' t' c' k1 k2 Hce Hca| | | | |]; subst.
    destruct (IHargs bv k1 c1 K h g a stk ve d B Hca He R ltac:(lia)) as (K1 & h1 & g1 & xs & A1 & A2 & A3 & A4).
    assert (He1 : env_rel K1 bv r ve) by (eapply env_rel_mono; [eapply ext_wle; eauto|exact He]).
    destruct (IHe bv _ k1 K1 h1 g1 a (xs :: stk) ve d B _ _ _ _ Hce He1 A3 (T_next _ _ _ _) ltac:(lia)) as (K2 & h2 & g2 & x & B1 & B2 & B3 & B4).
    assert (Ha2 : arglist K2 h2 (length h) (length h1) xs vs) by (eapply arglist_ext; [exact B2|lia|exact A4]).
    pose proof (x_len _ _ _ _ _ A2). pose proof (x_len _ _ _ _ _ B2).
    assert (T' : target t stk ve (if t then [IReturn] else c) d S1 E1 C1 D1) by (destruct t; [rewrite <- (target_tail _ _ _ _ _ _ _ _ _ T eq_refl)|]; exact T).
    destruct (IHf t K2 h2 g2 a (length h) (length h1) x xs stk ve c d B _ _ _ _ B3 B4 Ha2 ltac:(lia) T' ltac:(lia)) as (K3 & h3 & g3 & w & C1' & C2 & C3 & C4).
    exists K3, h3, g3, w. split; [|split; [|split; [exact C3|exact C4]]].
    + eapply steps_trans; [exact A1|]. eapply steps_trans; [exact B1|exact C1'].
    + eapply ext_trans; [|exact C2|lia]. eapply ext_trans; [exact A2|exact B2|lia].
  - (* if, true *) intros t r e1 e2 e3 s v s1 u s2 n1 n2 _ IH1 Hv _ IH2 bv c c1 K h g a stk ve d B S1 E1 C1 D1 Hc He R T L.
    inversion Hc as [| | | |bv' x1 x2 x3 t' c' k1 k2 k3 Hc2 Hc3 Hc1| | | |]; subst.
    destruct (IH1 bv _ c1 K h g a stk ve d B _ _ _ _ Hc1 He R (T_next _ _ _ _) ltac:(lia)) as (K1 & h1 & g1 & x & A1 & A2 & A3 & A4).
    assert (He1 : env_rel K1 bv r ve) by (eapply env_rel_mono; [eapply ext_wle; eauto|exact He]).
    assert (Hx : val_eqb x f_ = false) by (destruct (val_eqb x f_) eqn:E; [apply (truth _ _ _ A4) in E; contradiction|reflexivity]).
    pose proof (x_len _ _ _ _ _ A2). destruct t; cbn [cost] in L.
    + destruct (IH2 bv c k1 K1 h1 g1 a stk ve d B _ _ _ _ Hc2 He1 A3 T ltac:(lia)) as (K2 & h2 & g2 & w & B1 & B2 & B3 & B4).
      exists K2, h2, g2, w. split; [|split; [eapply ext_trans; [exact A2|exact B2|lia]|auto]].
      eapply steps_trans; [exact A1|]. eapply S_step; [cbn; lia|cbn; rewrite Hx; reflexivity|exact B1].
    + inversion T; subst.
      destruct (IH2 bv [IJoin] k1 K1 h1 g1 a S1 E1 (DC C1 :: D1) B _ _ _ _ Hc2 He1 A3 (T_next _ _ _ _) ltac:(cbn; lia)) as (K2 & h2 & g2 & w & B1 & B2 & B3 & B4).
      exists K2, h2, g2, w. split; [|split; [eapply ext_trans; [exact A2|exact B2|lia]|auto]].
      eapply steps_trans; [exact A1|]. eapply S_step; [cbn; lia|cbn; rewrite Hx; reflexivity|].
      eapply steps_trans; [exact B1|]. apply steps_one; cbn; [lia|lia|reflexivity].
  - (* if, false *) intros t r e1 e2 e3 s s1 u s2 n1 n2 _ IH1 _ IH2 bv c c1 K h g a stk ve d B S1 E1 C1 D1 Hc He R T L.
    inversion Hc as [| | | |bv' x1 x2 x3 t' c' k1 k2 k3 Hc2 Hc3 Hc1| | | |]; subst.
    destruct (IH1 bv _ c1 K h g a stk ve d B _ _ _ _ Hc1 He R (T_next _ _ _ _) ltac:(lia)) as (K1 & h1 & g1 & x & A1 & A2 & A3 & A4).
    assert (He1 : env_rel K1 bv r ve) by (eapply env_rel_mono; [eapply ext_wle; eauto|exact He]).
    assert (Hx : val_eqb x f_ = true) by (apply (truth _ _ _ A4); reflexivity).
    pose proof (x_len _ _ _ _ _ A2). destruct t; cbn [cost] in L.
    + destruct (IH2 bv c k2 K1 h1 g1 a stk ve d B _ _ _ _ Hc3 He1 A3 T ltac:(lia)) as (K2 & h2 & g2 & w & B1 & B2 & B3 & B4).
      exists K2, h2, g2, w. split; [|split; [eapply ext_trans; [exact A2|exact B2|lia]|auto]].
      eapply steps_trans; [exact A1|]. eapply S_step; [cbn; lia|cbn; rewrite Hx; reflexivity|exact B1].
    + inversion T; subst.
      destruct (IH2 bv [IJoin] k2 K1 h1 g1 a S1 E1 (DC C1 :: D1) B _ _ _ _ Hc3 He1 A3 (T_next _ _ _ _) ltac:(cbn; lia)) as (K2 & h2 & g2 & w & B1 & B2 & B3 & B4).
      exists K2, h2, g2, w. split; [|split; [eapply ext_trans; [exact A2|exact B2|lia]|auto]].
      eapply steps_trans; [exact A1|]. eapply S_step; [cbn; lia|cbn; rewrite Hx; reflexivity|].
      eapply steps_trans; [exact B1|]. apply steps_one; cbn; [lia|lia|reflexivity].
  - (* set! of a local *) intros t r x l e s v s1 w n _ IH Hx Hl bv c c1 K h g a stk ve d B S1 E1 C1 D1 Hc He R T L.
    inversion Hc as [| | | | |bv' x' i e' t' c' k1 Hi Hce| | |]; subst.
    destruct (IH bv _ c1 K h g a stk ve d B _ _ _ _ Hce He R (T_next _ _ _ _) ltac:(lia)) as (K1 & h1 & g1 & u & A1 & A2 & A3 & A4).
    assert (He1 : env_rel K1 bv r ve) by (eapply env_rel_mono; [eapply ext_wle; eauto|exact He]).
    destruct (env_access None K1 s1 h1 g1 bv r ve x l w A3 eq_refl He1 Hx Hl) as (i' & p & b & H1 & H2 & H3).
    destruct Hi as [Hi|(Hi & _)]; [|congruence]. assert (i' = i) by congruence. subst i'.
    pose proof (r_cells _ _ _ _ _ _ _ _ A3 p) as Hcell. unfold cell_ok in Hcell.
    assert (Hpair : K1 p <> KFree /\ exists X Y, nth_error h1 p = Some (OPair X Y)).
    { destruct b; destruct H3 as (z & H3); rewrite H3 in Hcell; destruct Hcell as (X & Y & Hh & HX & HY); (split; [congruence|eauto]). }
    destruct Hpair as (Hnf & X & Y & Hh).
    exists K1, (update h1 p (set_side (X, Y) b u)), g1, u. split; [|split; [|split; [eapply rel_write_var; eauto|exact A4]]].
    + eapply steps_trans; [exact A1|]. eapply S_step; [cbn; lia|apply (write_place h1 ve i p b X Y H2 Hh)|]. eapply finish; [exact T|lia].
    + eapply ext_trans; [exact A2|apply ext_update with (lo := length h); exact Hnf|lia].
  - (* set! of a global *) intros t r x e s v s1 w n _ IH Hx Hl bv c c1 K h g a stk ve d B S1 E1 C1 D1 Hc He R T L.
    inversion Hc as [| | | | |bv' x' i e' t' c' k1 Hi Hce| | |]; subst.
    pose proof (env_miss K bv r ve x He Hx) as Hm.
    destruct Hi as [Hi|(_ & m & Hm' & ->)]; [congruence|].
    destruct (IH bv _ c1 K h g a stk ve d B _ _ _ _ Hce He R (T_next _ _ _ _) ltac:(lia)) as (K1 & h1 & g1 & u & A1 & A2 & A3 & A4).
    exists K1, h1, (update g1 m (GVal u)), u. split; [|split; [exact A2|split; [eapply rel_write_global; eauto using global_cell|exact A4]]].
    eapply steps_trans; [exact A1|]. eapply S_step; [cbn; lia| |eapply finish; [exact T|lia]].
    pose proof (wg_bound _ _ (r_genv _ _ _ _ _ _ _ _ A3) x m Hm') as Lm. cbn in Lm. cbn [store step].
    destruct (Nat.ltb_spec m (length g1)); [reflexivity|lia].
  - (* define *) intros t x e s v s1 n _ IH bv c c1 K h g a stk ve d B S1 E1 C1 D1 Hc He R T L.
    inversion Hc as [| | | | | |x' m e' t' c' k1 Hm' Hk Hce| |]; subst.
    destruct (IH [] _ c1 K h g a stk ve d B _ _ _ _ Hce He R (T_next _ _ _ _) ltac:(lia)) as (K1 & h1 & g1 & u & A1 & A2 & A3 & A4).
    exists K1, h1, (update g1 m (GVal u)), u. split; [|split; [exact A2|split; [eapply rel_write_global; eauto|exact A4]]].
    eapply steps_trans; [exact A1|]. eapply S_step; [cbn; lia| |eapply finish; [exact T|lia]].
    pose proof (wg_bound _ _ (r_genv _ _ _ _ _ _ _ _ A3) x m Hm') as Lm. cbn in Lm. cbn [step].
    destruct (Nat.ltb_spec m (length g1)); [reflexivity|lia].
  - (* letrec *) intros t r xs inits b s ls s0 vs s1 v s2 n1 n2 Hres _ IHi Hlen _ IHb bv c c1 K h g a stk ve d B S1 E1 C1 D1 Hc He R T L.
    inversion Hc as [| | | | | | |bv' fs xs' inits' b' t' c' kb k1 Hf Hcb Hca|]; subst.
    destruct (reserve_spec _ _ _ _ Hres) as (Rl & Rs & Rlocs & _).
    set (q := length h). set (h0 := h ++ [OPair VNil ve]). set (K0 := Kset K q (KPend ls ve)).
    assert (Hq : K q = KFree) by (eapply rel_free; [exact R|unfold q; lia]).
    assert (Hin : forall l, In l ls -> length (locs s) <= l < length (locs s) + length xs) by (intros l H; rewrite Rs in H; apply in_seq in H; exact H).
    assert (R0 : rel K0 s0 h0 g).
    { apply rel_add_pend.
      - apply rel_alloc. eapply rel_reserve; [exact Hres|exact R].
      - exact Hq.
      - apply nth_snoc.
      - intros l Hl. rewrite Rlocs. apply nth_repeat_app. auto.
      - intros q' ls' e' l H1 H2 H3. apply Hin in H3.
        pose proof (r_pend _ _ _ _ _ _ _ _ R q' ls' e' l H1 ltac:(discriminate) H2) as H4. apply nth_lt in H4. lia. }
    assert (X0 : ext (length h) K h K0 h0).
    { apply (ext_trans (length h) (length h) _ _ K h0); [apply ext_alloc|apply ext_set; [exact Hq|apply le_n]|apply le_n]. }
    assert (He0 : env_rel K0 (fs :: bv) (combine xs ls ++ r) (VPtr q)).
    { replace (combine xs ls) with (combine (xs ++ opt (@None nat)) ls) by (cbn; rewrite app_nil_r; reflexivity).
      apply ER_pend with (e := ve); [exact Hf|apply Kset_eq|exact Rl|]. eapply env_rel_mono; [eapply ext_wle; exact X0|exact He]. }
    destruct (IHi (fs :: bv) _ k1 K0 h0 g a stk (VPtr q) d B Hca He0 R0 ltac:(lia)) as (K1 & h1 & g1 & args & A1 & A2 & A3 & A4).
    assert (Lh0 : length h0 = S (length h)) by (unfold h0; rewrite app_length; cbn; lia).
    assert (Hq1 : K1 q = KPend ls ve) by (rewrite (x_kle _ _ _ _ _ A2 q); [apply Kset_eq|unfold K0; rewrite Kset_eq; discriminate]).
    pose proof (r_cells _ _ _ _ _ _ _ _ A3 q) as Hcq. unfold cell_ok in Hcq. rewrite Hq1 in Hcq.
    set (h2 := h1 ++ [OClosure kb (VPtr q)]).
    assert (Rx : relx (Some q) K1 s1 h2 g1) by (apply relx_weaken, rel_alloc; exact A3).
    destruct (init_frame ls vs s1 q K1 h2 g1 (length h0) (length h1) args Rx (arglist_alloc _ _ _ _ _ _ _ A4) ltac:(congruence)) as (K2 & R2 & T2 & F2).
    { rewrite Rs. apply seq_NoDup. }
    { intros l Hl. exact (r_pend _ _ _ _ _ _ _ _ A3 q ls ve l Hq1 ltac:(discriminate) Hl). }
    { intros l p ls' e' Hl Hp Hne Hl'. apply Hne. exact (r_pends _ _ _ _ _ _ _ _ A3 p q ls' ls e' ve l Hp Hq1 Hl' Hl). }
    assert (Hq2 : K2 q = KPend ls ve) by (rewrite (touched_kle _ _ _ _ T2 q); congruence).
    pose proof (rel_complete _ _ _ _ _ _ _ _ _ _ _ R2 Hq2 F2) as R3.
    set (K3 := Kset K2 q (KCell (Fix args) (Fix ve))) in *. set (h3 := update h2 q (OPair args ve)) in *.
    assert (X1 : ext (length h) K0 h0 K1 h1) by (eapply ext_weak; [exact A2|lia]).
    assert (X2 : ext (length h) K1 h1 K2 h2).
    { apply (ext_trans (length h) (length h) _ _ K1 h2); [apply ext_alloc|apply (ext_weak (length h0)); [eapply ext_touched; exact T2|lia]|apply le_n]. }
    assert (W3 : wle K K3).
    { assert (X : ext (length h) K h K2 h2) by (eapply ext_trans; [eapply ext_trans; [exact X0|exact X1|lia]|exact X2|lia]).
      apply kle_wle. intros p Hp. unfold K3. rewrite Kset_neq by congruence. apply (x_kle _ _ _ _ _ X). exact Hp. }
    assert (X3 : ext (length h) K h K3 h3).
    { assert (X : ext (length h) K h K2 h2) by (eapply ext_trans; [eapply ext_trans; [exact X0|exact X1|lia]|exact X2|lia]).
      split.
      - intros p Hp. unfold K3. rewrite Kset_neq by congruence. apply (x_kle _ _ _ _ _ X). exact Hp.
      - unfold h3. rewrite length_update. apply (x_len _ _ _ _ _ X).
      - intros p Hp Hp' Hk. destruct (x_free _ _ _ _ _ X p Hp Hp' Hk) as (E1' & E2').
        unfold K3, h3. rewrite Kset_neq, nth_update_neq by (unfold q; lia). auto. }
    assert (F3 : frame K3 (Fix args) (length xs) false ls).
    { rewrite <- Rl. assert (FK : forall f n b l, frame K2 f n b l -> frame K3 f n b l); [|apply FK; exact F2].
      intros f n b0 l F. induction F as [| |p l a' n r' ls' Hp Hf' IH]; econstructor; [|exact IH].
      unfold K3. rewrite Kset_neq; [exact Hp|congruence]. }
    assert (He3 : env_rel K3 (fs :: bv) (combine xs ls ++ r) (VPtr q)).
    { replace (combine xs ls) with (combine (xs ++ opt (@None nat)) ls) by (cbn; rewrite app_nil_r; reflexivity).
      apply ER_cons with (e := ve) (a := Fix args); [exact Hf|apply Kset_eq|exact F3|]. eapply env_rel_mono; [exact W3|exact He]. }
    pose proof (x_len _ _ _ _ _ X3) as L3.
    assert (Hq3 : nth_error h2 q = Some (OPair VNil ve)) by (apply nth_app_l; exact Hcq).
    destruct t; cbn [cost] in L.
    + pose proof (target_tail _ _ _ _ _ _ _ _ _ T eq_refl) as ->.
      assert (T' : target true [] (VPtr q) [IReturn] d S1 E1 C1 D1) by (inversion T; subst; constructor).
      destruct (IHb (fs :: bv) [IReturn] kb K3 h3 g1 a [] (VPtr q) d B _ _ _ _ Hcb He3 R3 T' ltac:(lia)) as (K4 & h4 & g4 & w & B1 & B2 & B3 & B4).
      exists K4, h4, g4, w. split; [|split; [eapply ext_trans; [exact X3|exact B2|lia]|auto]].
      eapply S_step; [cbn; lia|reflexivity|]. eapply steps_trans; [exact A1|].
      eapply S_step; [cbn; lia|reflexivity|]. eapply S_step; [cbn; lia| |exact B1].
      cbn [step callee]. fold h2. unfold h2 at 1. rewrite nth_snoc. cbn [set_car]. rewrite Hq3. reflexivity.
    + inversion T; subst.
      destruct (IHb (fs :: bv) [IReturn] kb K3 h3 g1 a [] (VPtr q) (DS S1 :: DE E1 :: DC C1 :: D1) B _ _ _ _ Hcb He3 R3 (T_return _ _ _ _ _ _) ltac:(cbn; lia)) as (K4 & h4 & g4 & w & B1 & B2 & B3 & B4).
      exists K4, h4, g4, w. split; [|split; [eapply ext_trans; [exact X3|exact B2|lia]|auto]].
      eapply S_step; [cbn; lia|reflexivity|]. eapply steps_trans; [exact A1|].
      eapply S_step; [cbn; lia|reflexivity|]. eapply S_step; [cbn; lia| |exact B1].
      cbn [step callee]. fold h2. unfold h2 at 1. rewrite nth_snoc. cbn [set_car cdr]. rewrite Hq3.
      unfold h3. reflexivity.
  - (* begin *) intros t r es s v s1 n _ IH bv c c1 K h g a stk ve d B S1 E1 C1 D1 Hc He R T L. inversion Hc; subst. eapply IH; eauto.
  - (* no operand *) intros r s bv c c1 K h g a stk ve d B Hc He R L. inversion Hc; subst.
    exists K, h, g, VNil. split; [|split; [apply ext_refl|split; [exact R|constructor]]].
    apply steps_one; cbn; [lia|lia|reflexivity].
  - (* operand *) intros r e es s vs s1 v s2 n1 n2 _ IH1 _ IH2 bv c c1 K h g a stk ve d B Hc He R L.
    inversion Hc as [|bv' e' es' c' k1 k2 Hce Hca]; subst.
    destruct (IH1 bv k1 c1 K h g a stk ve d B Hca He R ltac:(lia)) as (K1 & h1 & g1 & xs & A1 & A2 & A3 & A4).
    assert (He1 : env_rel K1 bv r ve) by (eapply env_rel_mono; [eapply ext_wle; eauto|exact He]).
    destruct (IH2 bv _ k1 K1 h1 g1 a (xs :: stk) ve d B _ _ _ _ Hce He1 A3 (T_next _ _ _ _) ltac:(lia)) as (K2 & h2 & g2 & x & B1 & B2 & B3 & B4).
    assert (Ha2 : arglist K2 h2 (length h) (length h1) xs vs) by (eapply arglist_ext; [exact B2|lia|exact A4]).
    pose proof (x_len _ _ _ _ _ A2). pose proof (x_len _ _ _ _ _ B2).
    exists K2, (h2 ++ [OPair x xs]), g2, (VPtr (length h2)). split; [|split; [|split]].
    + eapply steps_trans; [exact A1|]. eapply steps_trans; [exact B1|]. apply steps_one; cbn; [lia|lia|reflexivity].
    + eapply ext_trans; [eapply ext_trans; [exact A2|exact B2|lia]|apply ext_alloc with (lo := length h)|lia].
    + apply rel_alloc. exact B3.
    + rewrite app_length. cbn [length]. econstructor; [lia|eapply rel_free; [exact B3|lia]|lia|apply nth_snoc|exact B4|].
      apply arglist_alloc. clear -Ha2 H0. inversion Ha2; subst; econstructor; eauto. lia.
  - (* last of a body *) intros t r e s v s1 n _ IH bv c c1 K h g a stk ve d B S1 E1 C1 D1 Hc He R T L.
    inversion Hc as [bv' e' t' c' k1 Hce|bv' e' es' t' c' k1 k2 Hcb Hce]; subst; [eapply IH; eauto|]. inversion Hcb.
  - (* body *) intros t r e es s u s1 v s2 n1 n2 _ IH1 _ IH2 Hne bv c c1 K h g a stk ve d B S1 E1 C1 D1 Hc He R T L.
    inversion Hc as [bv' e' t' c' k1 Hce|bv' e' es' t' c' k1 k2 Hcb Hce]; subst; [contradiction|].
    destruct (IH1 bv _ c1 K h g a stk ve d B _ _ _ _ Hce He R (T_next _ _ _ _) ltac:(lia)) as (K1 & h1 & g1 & x & A1 & A2 & A3 & A4).
    assert (He1 : env_rel K1 bv r ve) by (eapply env_rel_mono; [eapply ext_wle; eauto|exact He]).
    pose proof (x_len _ _ _ _ _ A2).
    destruct (IH2 bv c k1 K1 h1 g1 a stk ve d B _ _ _ _ Hcb He1 A3 T ltac:(lia)) as (K2 & h2 & g2 & w & B1 & B2 & B3 & B4).
    exists K2, h2, g2, w. split; [|split; [eapply ext_trans; [exact A2|exact B2|lia]|auto]].
    eapply steps_trans; [exact A1|]. eapply S_step; [cbn; lia|reflexivity|exact B1].
  - (* closure *) intros l xs rest b r vs s ls s1 v s2 n Hl Hb _ IH t K h g a lo hi x args stk ve c d B S1 E1 C1 D1 R V Ha Hlo T L.
    inversion V as [| |l' p Hp]; subst. pose proof (r_cells _ _ _ _ _ _ _ _ R p) as Hc. unfold cell_ok in Hc. rewrite Hp in Hc.
    destruct Hc as (c0 & o & H1 & H2 & H3). rewrite Hl in H1. injection H1 as <-.
    inversion H3 as [|fs xs' rest' b' r' bv kb e0 Hf Hcb He| |]; subst.
    destruct (bind_frame xs rest vs s ls s1 Hb K h g lo hi args R Ha) as (K1 & fl & R1 & T1 & F1 & V1 & N1).
    set (q := length h). set (h1 := h ++ [OPair args e0]). set (K2 := Kset K1 q (KCell fl (Fix e0))).
    assert (Hq : K1 q = KFree) by (eapply rel_free; [exact R1|unfold q; lia]).
    assert (X1 : ext lo K h K1 h) by (eapply ext_touched; exact T1).
    assert (X2 : ext lo K1 h K2 h1).
    { apply (ext_trans lo lo _ _ K1 h1); [apply ext_alloc|apply ext_set; [exact Hq|unfold q; lia]|apply le_n]. }
    assert (W2 : wle K1 K2) by (eapply ext_wle; exact X2).
    assert (R2 : rel K2 s1 h1 g).
    { apply rel_add_cell with (x := args) (y := e0).
      - apply rel_alloc. exact R1.
      - exact Hq.
      - apply nth_snoc.
      - exact V1.
      - reflexivity.
      - intros l0 q0 b0 [E|E]; [apply N1; exact E|discriminate].
      - discriminate. }
    assert (He2 : env_rel K2 (fs :: bv) (combine (xs ++ opt rest) ls ++ r) (VPtr q)).
    { apply ER_cons with (e := e0) (a := fl); [exact Hf|apply Kset_eq|eapply frame_mono; [exact W2|exact F1]|].
      eapply env_rel_mono; [|exact He]. eapply ext_wle. eapply ext_trans; [exact X1|exact X2|apply le_n]. }
    assert (Lh1 : length h1 = S (length h)) by (unfold h1; rewrite app_length; cbn; lia).
    assert (Go : forall dd, target true [] (VPtr q) [IReturn] dd S1 E1 C1 D1 -> length dd + n <= B ->
      step proc (St (VPtr p :: args :: stk) ve (if t then [ITailCall] else ICall :: c) d h g a) = Next (St [] (VPtr q) kb dd h1 g a) -> length d <= B ->
      exists K' h' g' u, steps B (St (VPtr p :: args :: stk) ve (if t then [ITailCall] else ICall :: c) d h g a) (St (u :: S1) E1 C1 D1 h' g' a) /\
        ext lo K h K' h' /\ rel K' s2 h' g' /\ vrel K' v u).
    { intros dd T' L' Hstep Ld.
      destruct (IH (fs :: bv) [IReturn] kb K2 h1 g a [] (VPtr q) dd B _ _ _ _ Hcb He2 R2 T' L') as (K3 & h3 & g3 & w & B1 & B2 & B3 & B4).
      exists K3, h3, g3, w. split; [eapply S_step; [exact Ld|exact Hstep|exact B1]|]. split; [|auto].
      eapply ext_trans; [eapply ext_trans; [exact X1|exact X2|apply le_n]|exact B2|lia]. }
    destruct t; cbn [cost] in L.
    + apply (Go d); [inversion T; subst; constructor|lia| |lia]. cbn. rewrite H2. reflexivity.
    + inversion T; subst. apply (Go (DS S1 :: DE E1 :: DC C1 :: D1)); [constructor|cbn; lia| |lia]. cbn. rewrite H2. reflexivity.
  - (* primitive procedure *) intros l k vs s v s1 Hl Hprim t K h g a lo hi x args stk ve c d B S1 E1 C1 D1 R V Ha Hlo T L.
    inversion V as [| |l' p Hp]; subst. pose proof (r_cells _ _ _ _ _ _ _ _ R p) as Hc. unfold cell_ok in Hc. rewrite Hp in Hc.
    destruct Hc as (c0 & o & H1 & H2 & H3). rewrite Hl in H1. injection H1 as <-. inversion H3; subst.
    destruct (prim_sim k s vs v s1 K h g lo hi args Hprim R Ha Hlo) as (K1 & h1 & u & A1 & A2 & A3 & A4).
    exists K1, h1, g, u. split; [|auto]. destruct t; cbn [cost] in L; inversion T; subst.
    + apply steps_one; cbn in *; [lia|lia|]. rewrite H2, A1. reflexivity.
    + apply steps_one; cbn in *; [lia|lia|]. rewrite H2, A1. reflexivity.
Qed.
End Run.
End Correct.
