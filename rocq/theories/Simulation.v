(** The relation between the states of the source-level semantics and those of the machine. *)
From Coq Require Import ZArith List Bool Lia.
From Verif Require Import Machine Generator CoreSemantics CompilerProofs.
Import ListNotations.

Lemma length_update {A} (l : list A) n x : length (update l n x) = length l.
Proof. revert n; induction l; destruct n; cbn; auto. Qed.
Lemma nth_update_eq {A} (l : list A) n x : n < length l -> nth_error (update l n x) n = Some x.
Proof. revert n; induction l; destruct n; cbn; intros; try lia; auto with arith. Qed.
Lemma nth_update_neq {A} (l : list A) n m x : n <> m -> nth_error (update l n x) m = nth_error l m.
Proof. revert n m; induction l; destruct n, m; cbn; intros; try congruence; auto. Qed.
Lemma nth_app_l {A} (l k : list A) n x : nth_error l n = Some x -> nth_error (l ++ k) n = Some x.
Proof. intro H. rewrite nth_error_app1; [exact H|]. apply nth_error_Some. congruence. Qed.
Lemma nth_snoc {A} (l : list A) x : nth_error (l ++ [x]) (length l) = Some x.
Proof. rewrite nth_error_app2, Nat.sub_diag by lia. reflexivity. Qed.
Lemma nth_lt {A} (l : list A) n x : nth_error l n = Some x -> n < length l.
Proof. intro H. apply nth_error_Some. congruence. Qed.

(** ** Worlds: what each heap object of the machine stands for *)
Inductive field := Fix (v : val) | At (l : nat).
Inductive kind :=
| KFree                                    (* nothing in the source-level state *)
| KObj (l : nat)                           (* the source-level object at l *)
| KCell (a d : field)                      (* a pair of an environment or of a frame *)
| KPend (ls : list nat) (e : val).         (* the environment pair of a letrec being initialised *)
Definition world := nat -> kind.
Definition Kset (K : world) (p : nat) (k : kind) : world := fun q => if Nat.eqb q p then k else K q.
Lemma Kset_eq K p k : Kset K p k p = k. Proof. unfold Kset. rewrite Nat.eqb_refl. reflexivity. Qed.
Lemma Kset_neq K p k q : q <> p -> Kset K p k q = K q.
Proof. unfold Kset. destruct (Nat.eqb_spec q p); congruence. Qed.

Inductive vrel (K : world) : sval -> val -> Prop :=
| VR_nil : vrel K SNil VNil
| VR_imm z : vrel K (SImm z) (VImm z)
| VR_loc l p : K p = KObj l -> vrel K (SLoc l) (VPtr p).

Inductive frame (K : world) : field -> nat -> bool -> list nat -> Prop :=
| FR_nil a : frame K a 0 false []
| FR_rest l : frame K (At l) 0 true [l]
| FR_cons p l a n r ls : K p = KCell (At l) a -> frame K a n r ls -> frame K (Fix (VPtr p)) (S n) r (l :: ls).

Definition is_some {A} (o : option A) : bool := match o with Some _ => true | None => false end.
Inductive env_rel (K : world) : list form -> env -> val -> Prop :=
| ER_nil : env_rel K [] [] VNil
| ER_cons fs xs r bv ls rho q e a :
    formals fs xs r -> K q = KCell a (Fix e) -> frame K a (length xs) (is_some r) ls ->
    env_rel K bv rho e -> env_rel K (fs :: bv) (combine (xs ++ opt r) ls ++ rho) (VPtr q)
| ER_pend fs xs bv ls rho q e :
    formals fs xs None -> K q = KPend ls e -> length ls = length xs ->
    env_rel K bv rho e -> env_rel K (fs :: bv) (combine (xs ++ opt None) ls ++ rho) (VPtr q).

Inductive objrel (kw : nat -> option keyword) (sc : list (nat * nat)) (K : world) : scell -> obj -> Prop :=
| OR_pair a d x y : vrel K a x -> vrel K d y -> objrel kw sc K (CPair a d) (OPair x y)
| OR_closure fs xs r b rho bv c e :
    formals fs xs r -> code_body kw sc (fs :: bv) b true [IReturn] c -> env_rel K bv rho e ->
    objrel kw sc K (CClosure xs r b rho) (OClosure c e)
| OR_procedure n : objrel kw sc K (CProcedure n) (OProcedure n)
| OR_other n : objrel kw sc K (COther n) (OOther n).

Definition frel (K : world) (s : sstore) (f : field) (x : val) : Prop :=
  match f with
  | Fix y => x = y
  | At l => exists v, nth_error (locs s) l = Some (CVar (Some v)) /\ vrel K v x
  end.
Definition cell_ok (kw : nat -> option keyword) (sc : list (nat * nat)) (K : world) (s : sstore) (h : heap) (p : nat) : Prop :=
  match K p with
  | KFree => True
  | KObj l => exists c o, nth_error (locs s) l = Some c /\ nth_error h p = Some o /\ objrel kw sc K c o
  | KCell a d => exists x y, nth_error h p = Some (OPair x y) /\ frel K s a x /\ frel K s d y
  | KPend ls e => nth_error h p = Some (OPair VNil e)
  end.
Definition slot (K : world) (l : nat) (p : nat) (b : bool) : Prop :=
  if b then exists d, K p = KCell (At l) d else exists a, K p = KCell a (At l).

Section Relation.
Variable object : nat -> option nat.
Variable kw : nat -> option keyword.
Variable sc : list (nat * nat).

(** [exc]: the letrec environment that is being completed, if any *)
Record relx (exc : option nat) (K : world) (s : sstore) (h : heap) (g : list gval) : Prop := {
  r_cells : forall p, cell_ok kw sc K s h p;
  r_objs : forall p q l, K p = KObj l -> K q = KObj l -> p = q;
  r_slots : forall l p q b c, slot K l p b -> slot K l q c -> p = q /\ b = c;
  r_pend : forall p ls e l, K p = KPend ls e -> exc <> Some p -> In l ls -> nth_error (locs s) l = Some (CVar None);
  r_pends : forall p q ls ls' e e' l, K p = KPend ls e -> K q = KPend ls' e' -> In l ls -> In l ls' -> p = q;
  r_lit : forall p l, object p = Some l -> K p = KObj l;
  r_globals : forall x v, globals s x = Some v -> exists n u, assq x sc = Some n /\ nth_error g n = Some (GVal u) /\ vrel K v u;
  r_genv : wf_genv kw (GEnv sc g)
}.
Definition rel := relx None.

Definition kle (K K' : world) : Prop := forall p, K p <> KFree -> K' p = K p.
Lemma kle_refl K : kle K K. Proof. intros p _. reflexivity. Qed.
Lemma kle_trans A B C : kle A B -> kle B C -> kle A C.
Proof. intros H1 H2 p Hp. rewrite (H2 p); [apply H1; exact Hp|]. rewrite (H1 p Hp). exact Hp. Qed.
Lemma kle_set K p k : K p = KFree -> kle K (Kset K p k).
Proof. intros H q Hq. apply Kset_neq. congruence. Qed.
(** a pending environment may also be completed *)
Definition wle (K K' : world) : Prop := forall p,
  match K p with
  | KFree => True
  | KPend ls e => K' p = K p \/ exists a, K' p = KCell a (Fix e) /\ frame K' a (length ls) false ls
  | k => K' p = k
  end.
Lemma kle_wle K K' : kle K K' -> wle K K'.
Proof. intros H p. specialize (H p). destruct (K p); auto; try (apply H; discriminate). left. apply H. discriminate. Qed.

Lemma vrel_mono K K' v x : wle K K' -> vrel K v x -> vrel K' v x.
Proof. intros H [| |l p Hp]; constructor. specialize (H p). rewrite Hp in H. exact H. Qed.
Lemma frame_mono K K' a n r ls : wle K K' -> frame K a n r ls -> frame K' a n r ls.
Proof.
  intros H. induction 1 as [| |p l a n r ls Hp Hf IH]; econstructor; [|exact IH].
  specialize (H p). rewrite Hp in H. exact H.
Qed.
Lemma env_rel_mono K K' bv rho e : wle K K' -> env_rel K bv rho e -> env_rel K' bv rho e.
Proof.
  intros H. induction 1 as [|fs xs r bv ls rho q e a Hf Hq Hr He IH|fs xs bv ls rho q e Hf Hq Hl He IH].
  - constructor.
  - econstructor; [exact Hf| |eapply frame_mono; eauto|exact IH]. specialize (H q). rewrite Hq in H. exact H.
  - pose proof (H q) as H'. rewrite Hq in H'. destruct H' as [H'|(a & Ha & Hfr)].
    + eapply ER_pend; eauto.
    + eapply ER_cons; [exact Hf|exact Ha| |exact IH]. rewrite <- Hl. exact Hfr.
Qed.
Lemma objrel_mono K K' c o : wle K K' -> objrel kw sc K c o -> objrel kw sc K' c o.
Proof.
  intros H [a d x y Ha Hd|fs xs r b rho bv c' e Hf Hc He| |]; econstructor; eauto using vrel_mono, env_rel_mono.
Qed.
Lemma frel_mono K K' s f x : wle K K' -> frel K s f x -> frel K' s f x.
Proof. intros H. destruct f; cbn; [auto|]. intros (v & Hv & Hx). exists v. eauto using vrel_mono. Qed.

Lemma slot_loc exc K s h g l p b : relx exc K s h g -> slot K l p b -> exists v, nth_error (locs s) l = Some (CVar (Some v)).
Proof.
  intros R Hs. pose proof (r_cells _ _ _ _ _ R p) as Hc. unfold cell_ok in Hc.
  destruct b; destruct Hs as (a & Hk); rewrite Hk in Hc; destruct Hc as (x & y & _ & Ha & Hd); [destruct Ha as (v & Hv & _)|destruct Hd as (v & Hv & _)]; eauto.
Qed.
Lemma rel_free exc K s h g p : relx exc K s h g -> length h <= p -> K p = KFree.
Proof.
  intros R Hp. pose proof (r_cells _ _ _ _ _ R p) as Hc. unfold cell_ok in Hc.
  assert (Hn : nth_error h p = None) by (apply nth_error_None; exact Hp).
  destruct (K p); [reflexivity|exfalso|exfalso|exfalso].
  - destruct Hc as (c & o & _ & Hc & _). congruence.
  - destruct Hc as (x & y & Hc & _). congruence.
  - congruence.
Qed.

(** *** Steps that do not change the source-level state *)
(** an object is allocated *)
Lemma rel_alloc exc K s h g o : relx exc K s h g -> relx exc K s (h ++ [o]) g.
Proof.
  intros R. split; try apply R. intro p. pose proof (r_cells _ _ _ _ _ R p) as Hc. unfold cell_ok in *.
  destruct (K p) as [|l|a d|ls e]; [exact I| | |].
  - destruct Hc as (c & o' & H1 & H2 & H3). exists c, o'. auto using nth_app_l.
  - destruct Hc as (x & y & H1 & H2). exists x, y. auto using nth_app_l.
  - auto using nth_app_l.
Qed.
(** a free pair becomes part of an environment *)
Lemma rel_add_cell exc K s h g p x y a d : relx exc K s h g -> K p = KFree -> nth_error h p = Some (OPair x y) ->
  frel K s a x -> frel K s d y ->
  (forall l q b, a = At l \/ d = At l -> ~ slot K l q b) -> (forall l, a = At l -> d = At l -> False) ->
  relx exc (Kset K p (KCell a d)) s h g.
Proof.
  intros R Hp Hh Ha Hd Hfresh Hne. set (K' := Kset K p (KCell a d)).
  assert (L : wle K K') by (apply kle_wle, kle_set, Hp).
  assert (Hslot : forall l q b, slot K' l q b -> (q <> p /\ slot K l q b) \/ (q = p /\ (if b then a else d) = At l)).
  { intros l q b H. unfold slot, K' in H. destruct (Nat.eq_dec q p) as [->|Hq].
    - right. split; [reflexivity|]. rewrite Kset_eq in H. destruct b; destruct H as (z & H); congruence.
    - left. split; [exact Hq|]. rewrite Kset_neq in H by exact Hq. exact H. }
  split.
  - intro q. unfold cell_ok. destruct (Nat.eq_dec q p) as [->|Hq].
    + unfold K' at 1. rewrite Kset_eq. exists x, y. eauto using frel_mono.
    + unfold K' at 1. rewrite Kset_neq by exact Hq. pose proof (r_cells _ _ _ _ _ R q) as Hc. unfold cell_ok in Hc.
      destruct (K q) as [|l|a' d'|ls e]; [exact I| | |exact Hc].
      * destruct Hc as (c & o & H1 & H2 & H3). exists c, o. eauto using objrel_mono.
      * destruct Hc as (x' & y' & H1 & H2 & H3). exists x', y'. eauto using frel_mono.
  - intros q1 q2 l H1 H2. unfold K' in *. destruct (Nat.eq_dec q1 p) as [->|N1]; [rewrite Kset_eq in H1; discriminate|].
    destruct (Nat.eq_dec q2 p) as [->|N2]; [rewrite Kset_eq in H2; discriminate|].
    rewrite Kset_neq in H1, H2 by assumption. eapply (r_objs _ _ _ _ _ R); eauto.
  - intros l q1 q2 b1 b2 H1 H2. apply Hslot in H1. apply Hslot in H2.
    destruct H1 as [(N1 & H1)|(-> & H1)], H2 as [(N2 & H2)|(-> & H2)].
    + eapply (r_slots _ _ _ _ _ R); eauto.
    + exfalso. eapply (Hfresh l q1 b1); [|exact H1]. destruct b2; auto.
    + exfalso. eapply (Hfresh l q2 b2); [|exact H2]. destruct b1; auto.
    + split; [reflexivity|]. destruct b1, b2; try reflexivity; exfalso; eauto.
  - intros q ls e l H Hx Hl. unfold K' in H. destruct (Nat.eq_dec q p) as [->|N]; [rewrite Kset_eq in H; discriminate|].
    rewrite Kset_neq in H by exact N. eapply (r_pend _ _ _ _ _ R); eauto.
  - intros q1 q2 l1 l2 e1 e2 l H1 H2. unfold K' in *. destruct (Nat.eq_dec q1 p) as [->|N1]; [rewrite Kset_eq in H1; discriminate|].
    destruct (Nat.eq_dec q2 p) as [->|N2]; [rewrite Kset_eq in H2; discriminate|].
    rewrite Kset_neq in H1, H2 by assumption. eapply (r_pends _ _ _ _ _ R); eauto.
  - intros q l H. pose proof (r_lit _ _ _ _ _ R q l H) as Hq. unfold K'. rewrite Kset_neq; [exact Hq|]. congruence.
  - intros z v H. destruct (r_globals _ _ _ _ _ R z v H) as (n & u & H1 & H2 & H3). exists n, u. eauto using vrel_mono.
  - apply R.
Qed.
(** a free object becomes the representation of a source-level object *)
Lemma rel_add_obj exc K s h g p l c o : relx exc K s h g -> K p = KFree -> nth_error h p = Some o ->
  nth_error (locs s) l = Some c -> objrel kw sc K c o -> (forall q, K q <> KObj l) ->
  relx exc (Kset K p (KObj l)) s h g.
Proof.
  intros R Hp Hh Hl Ho Hn. set (K' := Kset K p (KObj l)).
  assert (L : wle K K') by (apply kle_wle, kle_set, Hp).
  assert (Hneq : forall q k, K' q = k -> k <> KObj l -> q <> p /\ K q = k).
  { intros q k H Hk. unfold K' in H. destruct (Nat.eq_dec q p) as [->|N]; [rewrite Kset_eq in H; congruence|].
    rewrite Kset_neq in H by exact N. auto. }
  split.
  - intro q. unfold cell_ok. destruct (Nat.eq_dec q p) as [->|Hq].
    + unfold K' at 1. rewrite Kset_eq. exists c, o. eauto using objrel_mono.
    + unfold K' at 1. rewrite Kset_neq by exact Hq. pose proof (r_cells _ _ _ _ _ R q) as Hc. unfold cell_ok in Hc.
      destruct (K q) as [|l'|a' d'|ls e]; [exact I| | |exact Hc].
      * destruct Hc as (c' & o' & H1 & H2 & H3). exists c', o'. eauto using objrel_mono.
      * destruct Hc as (x' & y' & H1 & H2 & H3). exists x', y'. eauto using frel_mono.
  - intros q1 q2 l' H1 H2. unfold K' in *. destruct (Nat.eq_dec q1 p) as [->|N1], (Nat.eq_dec q2 p) as [->|N2]; try reflexivity.
    + rewrite Kset_eq in H1. rewrite Kset_neq in H2 by assumption. injection H1 as <-. exfalso. eapply Hn; eauto.
    + rewrite Kset_eq in H2. rewrite Kset_neq in H1 by assumption. injection H2 as <-. exfalso. eapply Hn; eauto.
    + rewrite Kset_neq in H1, H2 by assumption. eapply (r_objs _ _ _ _ _ R); eauto.
  - intros l' q1 q2 b1 b2 H1 H2.
    assert (Hs : forall q b, slot K' l' q b -> slot K l' q b).
    { intros q b H. unfold slot in *. destruct b; destruct H as (z & H); exists z; apply Hneq in H; try discriminate; apply H. }
    eapply (r_slots _ _ _ _ _ R); eauto.
  - intros q ls e l' H Hx Hl'. apply Hneq in H; [|discriminate]. destruct H as (_ & H). eapply (r_pend _ _ _ _ _ R); eauto.
  - intros q1 q2 l1 l2 e1 e2 l' H1 H2. apply Hneq in H1; [|discriminate]. apply Hneq in H2; [|discriminate].
    destruct H1 as (_ & H1), H2 as (_ & H2). eapply (r_pends _ _ _ _ _ R); eauto.
  - intros q l' H. pose proof (r_lit _ _ _ _ _ R q l' H) as Hq. unfold K'. rewrite Kset_neq; [exact Hq|]. congruence.
  - intros z v H. destruct (r_globals _ _ _ _ _ R z v H) as (n & u & H1 & H2 & H3). exists n, u. eauto using vrel_mono.
  - apply R.
Qed.
(** *** Steps of the source-level state *)
(** a location is added *)
Lemma rel_add exc K s h g c : relx exc K s h g -> relx exc K (add s c) h g.
Proof.
  intros R. split; try apply R.
  - intro p. pose proof (r_cells _ _ _ _ _ R p) as Hc. unfold cell_ok in *.
    assert (Hf : forall f x, frel K s f x -> frel K (add s c) f x).
    { intros [y|l] x; cbn; [auto|]. intros (v & Hv & Hx). exists v. auto using nth_app_l. }
    destruct (K p) as [|l|a d|ls e]; [exact I| | |exact Hc].
    + destruct Hc as (c' & o' & H1 & H2 & H3). exists c', o'. cbn. auto using nth_app_l.
    + destruct Hc as (x & y & H1 & H2 & H3). exists x, y. auto.
  - intros p ls e l H1 H2 H3. cbn. apply nth_app_l. eapply (r_pend _ _ _ _ _ R); eauto.
Qed.
(** a variable is written, in the machine and in the source-level store *)
Definition set_side (o : val * val) (b : bool) (u : val) : obj := if b then OPair u (snd o) else OPair (fst o) u.
Lemma rel_write_var exc K s h g l p b x y v u w : relx exc K s h g -> slot K l p b -> nth_error h p = Some (OPair x y) ->
  nth_error (locs s) l = Some (CVar (Some w)) -> vrel K v u ->
  relx exc K (write s l (CVar (Some v))) (update h p (set_side (x, y) b u)) g.
Proof.
  intros R Hs Hh Hl Hv.
  assert (Ll : l < length (locs s)) by (eapply nth_lt; eauto).
  assert (Lp : p < length h) by (eapply nth_lt; eauto).
  assert (Hw : forall l' c, nth_error (locs s) l' = Some c -> l' <> l -> nth_error (locs (write s l (CVar (Some v)))) l' = Some c).
  { intros l' c H N. cbn. rewrite nth_update_neq by congruence. exact H. }
  assert (Hf : forall f z, frel K s f z -> f <> At l -> frel K (write s l (CVar (Some v))) f z).
  { intros [y'|l'] z; cbn; [auto|]. intros (v' & Hv' & Hz) N. exists v'. split; [|exact Hz]. apply Hw; congruence. }
  split; try apply R.
  - intro q. pose proof (r_cells _ _ _ _ _ R q) as Hc. unfold cell_ok in *.
    destruct (Nat.eq_dec q p) as [->|Nq].
    + assert (Hk : exists a d, K p = KCell a d /\ (if b then a else d) = At l).
      { destruct b; destruct Hs as (z & Hs); eauto. }
      destruct Hk as (a & d & Hk & Hside). rewrite Hk in *. destruct Hc as (x' & y' & H1 & H2 & H3).
      rewrite Hh in H1. injection H1 as <- <-.
      assert (Hnew : frel K (write s l (CVar (Some v))) (At l) u).
      { cbn. exists v. split; [apply nth_update_eq; exact Ll|exact Hv]. }
      assert (Hother : forall b' : bool, b' <> b -> (if b' then a else d) <> At l).
      { intros b' Nb E. destruct (r_slots _ _ _ _ _ R l p p b b') as (_ & Eb); [exact Hs| |congruence].
        unfold slot. destruct b'; [exists d|exists a]; congruence. }
      exists (if b then u else x), (if b then y else u).
      split; [|split].
      * rewrite nth_update_eq by exact Lp. unfold set_side. destruct b; reflexivity.
      * destruct b; [cbn in Hside; rewrite Hside; exact Hnew|]. apply Hf; [exact H2|]. apply (Hother true). discriminate.
      * destruct b; [|cbn in Hside; rewrite Hside; exact Hnew]. apply Hf; [exact H3|]. apply (Hother false). discriminate.
    + rewrite nth_update_neq by congruence.
      destruct (K q) as [|l'|a d|ls e] eqn:Eq; [exact I| | |exact Hc].
      * destruct Hc as (c' & o' & H1 & H2 & H3). exists c', o'. split; [|auto]. apply Hw; [exact H1|].
        intros ->. rewrite Hl in H1. injection H1 as <-. inversion H3.
      * destruct Hc as (x' & y' & H1 & H2 & H3). exists x', y'. split; [exact H1|].
        assert (Hn : forall b' : bool, (if b' then a else d) <> At l).
        { intros b' E. destruct (r_slots _ _ _ _ _ R l p q b b') as (Ep & _); [exact Hs| |congruence].
          unfold slot. destruct b'; [exists d|exists a]; congruence. }
        split; apply Hf; try assumption; [apply (Hn true)|apply (Hn false)].
  - intros q ls e l' H1 H2 H3. pose proof (r_pend _ _ _ _ _ R q ls e l' H1 H2 H3) as H. apply Hw; [exact H|]. congruence.
Qed.
(** a variable that had no value and no place gets both *)
Lemma rel_init_var exc K s h g l p x y v d : relx exc K s h g -> K p = KFree -> nth_error h p = Some (OPair x y) ->
  nth_error (locs s) l = Some (CVar None) -> (forall q ls e, K q = KPend ls e -> exc <> Some q -> ~ In l ls) ->
  vrel K v x -> y = d ->
  relx exc (Kset K p (KCell (At l) (Fix d))) (write s l (CVar (Some v))) h g.
Proof.
  intros R Hp Hh Hl Hpend Hv ->.
  assert (Ll : l < length (locs s)) by (eapply nth_lt; eauto).
  assert (R' : relx exc K (write s l (CVar (Some v))) h g).
  { assert (Hw : forall l' c, nth_error (locs s) l' = Some c -> c <> CVar None -> nth_error (locs (write s l (CVar (Some v)))) l' = Some c).
    { intros l' c H N. cbn. rewrite nth_update_neq; [exact H|]. congruence. }
    assert (Hf : forall f z, frel K s f z -> frel K (write s l (CVar (Some v))) f z).
    { intros [y'|l'] z; cbn; [auto|]. intros (v' & Hv' & Hz). exists v'. split; [|exact Hz]. apply Hw; congruence. }
    split; try apply R.
    - intro q. pose proof (r_cells _ _ _ _ _ R q) as Hc. unfold cell_ok in *.
      destruct (K q) as [|l'|a d'|ls e] eqn:Eq; [exact I| | |exact Hc].
      + destruct Hc as (c' & o' & H1 & H2 & H3). exists c', o'. split; [|auto]. apply Hw; [exact H1|].
        intros ->. inversion H3.
      + destruct Hc as (x' & y' & H1 & H2 & H3). exists x', y'. auto.
    - intros q ls e l' H1 H2 H3. cbn. rewrite nth_update_neq; [eapply (r_pend _ _ _ _ _ R); eauto|].
      intros ->. eapply Hpend; eauto. }
  apply (rel_add_cell exc K _ h g p x d (At l) (Fix d) R' Hp Hh).
  - cbn. exists v. split; [apply nth_update_eq; exact Ll|exact Hv].
  - reflexivity.
  - intros l' q b [E|E]; [|discriminate]. injection E as <-. intro Hs.
    destruct (slot_loc _ _ _ _ _ _ _ _ R Hs) as (v' & H). congruence.
  - discriminate.
Qed.
(** a global is written *)
Lemma rel_write_global exc K s h g x n v u : relx exc K s h g -> assq x sc = Some n -> kw x = None -> vrel K v u ->
  relx exc K (Store (locs s) (define_global (globals s) x v)) h (update g n (GVal u)).
Proof.
  intros R Hx Hk Hv. pose proof (r_genv _ _ _ _ _ R) as W. pose proof (wg_bound _ _ W x n Hx) as Ln. cbn in Ln.
  split; try apply R.
  - intros y w H. cbn in H. unfold define_global in H. destruct (Nat.eqb_spec y x) as [->|Ny].
    + injection H as <-. exists n, u. rewrite nth_update_eq by exact Ln. auto.
    + destruct (r_globals _ _ _ _ _ R y w H) as (m & u' & H1 & H2 & H3). exists m, u'.
      rewrite nth_update_neq; [auto|]. intros ->. apply Ny. eapply (wg_inj _ _ W); eauto.
  - split; cbn [scope cells].
    + apply (wg_inj _ _ W).
    + intros y m H. rewrite length_update. apply (wg_bound _ _ W y m H).
    + intros y k H. destruct (wg_kw _ _ W y k H) as (m & H1 & H2). cbn in *. exists m. split; [exact H1|].
      rewrite nth_update_neq; [exact H2|]. intros ->. assert (y = x) by (eapply (wg_inj _ _ W); eauto). congruence.
    + intros y m k H1 H2. destruct (Nat.eq_dec n m) as [->|N].
      * rewrite nth_update_eq in H2 by exact Ln. discriminate.
      * rewrite nth_update_neq in H2 by exact N. eapply (wg_var _ _ W); eauto.
Qed.
(** a letrec environment is entered and completed *)
Lemma rel_add_pend exc K s h g p ls e : relx exc K s h g -> K p = KFree -> nth_error h p = Some (OPair VNil e) ->
  (forall l, In l ls -> nth_error (locs s) l = Some (CVar None)) ->
  (forall q ls' e' l, K q = KPend ls' e' -> In l ls' -> ~ In l ls) ->
  relx exc (Kset K p (KPend ls e)) s h g.
Proof.
  intros R Hp Hh Hls Hdis. set (K' := Kset K p (KPend ls e)).
  assert (L : wle K K') by (apply kle_wle, kle_set, Hp).
  assert (Hneq : forall q k, K' q = k -> (forall a b, k <> KPend a b) -> K q = k).
  { intros q k H Hk. unfold K' in H. destruct (Nat.eq_dec q p) as [->|N]; [rewrite Kset_eq in H; exfalso; eapply Hk; eauto|].
    rewrite Kset_neq in H by exact N. auto. }
  assert (Hq : forall q ls' e', K' q = KPend ls' e' -> (q = p /\ ls' = ls) \/ K q = KPend ls' e').
  { intros q ls' e' H. unfold K' in H. destruct (Nat.eq_dec q p) as [->|N].
    - rewrite Kset_eq in H. left. split; congruence.
    - rewrite Kset_neq in H by exact N. auto. }
  split.
  - intro q. unfold cell_ok. destruct (Nat.eq_dec q p) as [->|Nq].
    + unfold K' at 1. rewrite Kset_eq. exact Hh.
    + unfold K' at 1. rewrite Kset_neq by exact Nq. pose proof (r_cells _ _ _ _ _ R q) as Hc. unfold cell_ok in Hc.
      destruct (K q) as [|l'|a' d'|ls' e']; [exact I| | |exact Hc].
      * destruct Hc as (c' & o' & H1 & H2 & H3). exists c', o'. eauto using objrel_mono.
      * destruct Hc as (x' & y' & H1 & H2 & H3). exists x', y'. eauto using frel_mono.
  - intros q1 q2 l H1 H2. apply Hneq in H1; [|discriminate]. apply Hneq in H2; [|discriminate]. eapply (r_objs _ _ _ _ _ R); eauto.
  - intros l q1 q2 b1 b2 H1 H2.
    assert (Hs : forall q b, slot K' l q b -> slot K l q b).
    { intros q b H. unfold slot in *. destruct b; destruct H as (z & H); exists z; apply Hneq in H; try discriminate; exact H. }
    eapply (r_slots _ _ _ _ _ R); eauto.
  - intros q ls' e' l H Hx Hl. apply Hq in H. destruct H as [(-> & ->)|H]; [auto|]. eapply (r_pend _ _ _ _ _ R); eauto.
  - intros q1 q2 l1 l2 e1 e2 l H1 H2 I1 I2. apply Hq in H1. apply Hq in H2.
    destruct H1 as [(-> & ->)|H1], H2 as [(-> & ->)|H2]; [reflexivity| | |eapply (r_pends _ _ _ _ _ R); eauto].
    + exfalso. exact (Hdis _ _ _ l H2 I2 I1).
    + exfalso. exact (Hdis _ _ _ l H1 I1 I2).
  - intros q l H. pose proof (r_lit _ _ _ _ _ R q l H) as H'. unfold K'. rewrite Kset_neq; [exact H'|]. congruence.
  - intros z v H. destruct (r_globals _ _ _ _ _ R z v H) as (n & u & H1 & H2 & H3). exists n, u. eauto using vrel_mono.
  - apply R.
Qed.
Lemma rel_complete K s h g p ls e xs : relx (Some p) K s h g -> K p = KPend ls e ->
  frame K (Fix xs) (length ls) false ls ->
  rel (Kset K p (KCell (Fix xs) (Fix e))) s (update h p (OPair xs e)) g.
Proof.
  intros R Hp Hfr. set (K' := Kset K p (KCell (Fix xs) (Fix e))).
  assert (Lp : p < length h).
  { pose proof (r_cells _ _ _ _ _ R p) as Hc. unfold cell_ok in Hc. rewrite Hp in Hc. eapply nth_lt; eauto. }
  assert (Hkeep : forall q, q <> p -> K' q = K q) by (intros; apply Kset_neq; assumption).
  assert (Hfr' : forall a n r l, frame K a n r l -> frame K' a n r l).
  { intros a n r l. induction 1 as [| |q l' a' n' r' ls' Hq Hf IH]; econstructor; [|exact IH].
    rewrite Hkeep; [exact Hq|]. congruence. }
  assert (L : wle K K').
  { intro q. destruct (Nat.eq_dec q p) as [->|N].
    - rewrite Hp. right. exists (Fix xs). split; [apply Kset_eq|]. apply Hfr'. exact Hfr.
    - rewrite (Hkeep q N). destruct (K q); auto. }
  assert (Hneq : forall q k, K' q = k -> k <> KCell (Fix xs) (Fix e) -> q <> p /\ K q = k).
  { intros q k H Hk. unfold K' in H. destruct (Nat.eq_dec q p) as [->|N]; [rewrite Kset_eq in H; congruence|].
    rewrite Kset_neq in H by exact N. auto. }
  split.
  - intro q. unfold cell_ok. destruct (Nat.eq_dec q p) as [->|Nq].
    + unfold K' at 1. rewrite Kset_eq. exists xs, e. rewrite nth_update_eq by exact Lp. cbn. auto.
    + unfold K' at 1. rewrite Kset_neq by exact Nq. rewrite nth_update_neq by congruence.
      pose proof (r_cells _ _ _ _ _ R q) as Hc. unfold cell_ok in Hc.
      destruct (K q) as [|l'|a' d'|ls' e']; [exact I| | |exact Hc].
      * destruct Hc as (c' & o' & H1 & H2 & H3). exists c', o'. eauto using objrel_mono.
      * destruct Hc as (x' & y' & H1 & H2 & H3). exists x', y'. eauto using frel_mono.
  - intros q1 q2 l H1 H2. apply Hneq in H1; [|discriminate]. apply Hneq in H2; [|discriminate].
    eapply (r_objs _ _ _ _ _ R); [apply H1|apply H2].
  - intros l q1 q2 b1 b2 H1 H2.
    assert (Hs : forall q b, slot K' l q b -> slot K l q b).
    { intros q b H. unfold slot in *. destruct b; destruct H as (z & H); exists z; apply Hneq in H; try congruence; apply H. }
    eapply (r_slots _ _ _ _ _ R); eauto.
  - intros q ls' e' l H _ Hl. apply Hneq in H; [|discriminate]. destruct H as (Nq & H). eapply (r_pend _ _ _ _ _ R); eauto. congruence.
  - intros q1 q2 l1 l2 e1 e2 l H1 H2. apply Hneq in H1; [|discriminate]. apply Hneq in H2; [|discriminate].
    destruct H1 as (_ & H1), H2 as (_ & H2). eapply (r_pends _ _ _ _ _ R); eauto.
  - intros q l H. pose proof (r_lit _ _ _ _ _ R q l H) as H'. unfold K'. rewrite Kset_neq; [exact H'|]. congruence.
  - intros z v H. destruct (r_globals _ _ _ _ _ R z v H) as (n & u & H1 & H2 & H3). exists n, u. eauto using vrel_mono.
  - apply R.
Qed.
Lemma relx_weaken q K s h g : rel K s h g -> relx (Some q) K s h g.
Proof. intros R. split; try apply R. intros p ls e l H1 _ H3. eapply (r_pend _ _ _ _ _ R); eauto. discriminate. Qed.
End Relation.
