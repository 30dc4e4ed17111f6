(** equal? terminates and decides structural equality of graphs. *)
From Coq Require Import ZArith List Bool Lia PeanoNat Relations.
From Verif Require Import Lists Equal.
Import ListNotations.

(** ** Specification *)
(** Content of the objects compared by content; two exact integers are the same
    whatever their representation *)
Inductive content := CInt (z : Z) | CRatio (n d : Z) | CText (s : list Z) | CBytes (k : nat) (s : list Z) | CCell (c : nat) (a d : ev).
Definition content_of (h : eheap) (x : ev) : option content :=
  match x with
  | ESmall z => Some (CInt z)
  | EPtr p => match nth_error h p with
              | Some (ELarge z) => Some (CInt z)
              | Some (ERatio n d) => Some (CRatio n d)
              | Some (EText s) => Some (CText s)
              | Some (EBytes k s) => Some (CBytes k s)
              | Some (ECell c a d) => Some (CCell c a d)
              | _ => None
              end
  | _ => None
  end.
Definition leaf_eq (h : eheap) (x y : ev) : Prop :=
  x = y \/ exists c, content_of h x = Some c /\ content_of h y = Some c.
(** one layer of structure *)
Definition layer (h : eheap) (R : ev -> ev -> Prop) (x y : ev) : Prop :=
  leaf_eq h x y \/
  (exists p q a d a' d', x = EPtr p /\ y = EPtr q /\ nth_error h p = Some (EPair a d) /\ nth_error h q = Some (EPair a' d') /\
     R a a' /\ R d d') \/
  (exists p q xs ys, x = EPtr p /\ y = EPtr q /\ nth_error h p = Some (EVec xs) /\ nth_error h q = Some (EVec ys) /\ Forall2 R xs ys).
(** the unfoldings agree down to depth [n], at every depth *)
Fixpoint agree (n : nat) (h : eheap) (x y : ev) : Prop :=
  match n with O => True | S n => layer h (agree n h) x y end.
Definition same_tree (h : eheap) (x y : ev) : Prop := forall n, agree n h x y.

(** cycles do not pass through vectors: a level that vectors strictly decrease *)
Definition levelled (h : eheap) (lvl : ev -> nat) : Prop :=
  (forall p a d, nth_error h p = Some (EPair a d) -> lvl a <= lvl (EPtr p) /\ lvl d <= lvl (EPtr p)) /\
  (forall p xs, nth_error h p = Some (EVec xs) -> forall x, In x xs -> lvl x < lvl (EPtr p)).
(** homogeneous vectors of one kind have one length: otherwise == is undefined behaviour *)
Definition uniform (h : eheap) : Prop :=
  forall p q k s t, nth_error h p = Some (EBytes k s) -> nth_error h q = Some (EBytes k t) -> length s = length t.

(** ** Basic facts *)
Lemma eqw_iff : forall x y, eqw x y = true <-> x = y.
Proof.
  intros [|a|a|p] [|b|b|q]; cbn; split; intros H; try discriminate; try reflexivity.
  - apply Z.eqb_eq in H. congruence.
  - injection H as ->. apply Z.eqb_refl.
  - apply Z.eqb_eq in H. congruence.
  - injection H as ->. apply Z.eqb_refl.
  - apply Nat.eqb_eq in H. congruence.
  - injection H as ->. apply Nat.eqb_refl.
Qed.
Lemma eqw_refl : forall x, eqw x x = true.
Proof. intros. apply eqw_iff. reflexivity. Qed.
Lemma zs_eqb_iff : forall a b, zs_eqb a b = true <-> a = b.
Proof.
  induction a as [|x a IH]; intros [|y b]; cbn; split; intros H; try discriminate; try reflexivity.
  - apply andb_prop in H. destruct H as [H1 H2]. apply Z.eqb_eq in H1. apply IH in H2. congruence.
  - injection H as -> ->. rewrite Z.eqb_refl. apply IH. reflexivity.
Qed.
Lemma leaf_refl : forall h x, leaf_eq h x x.
Proof. left. reflexivity. Qed.
Lemma leaf_sym : forall h x y, leaf_eq h x y -> leaf_eq h y x.
Proof. intros h x y [->|(c & A & B)]; [left; reflexivity|right; eauto]. Qed.
Lemma leaf_trans : forall h x y z, leaf_eq h x y -> leaf_eq h y z -> leaf_eq h x z.
Proof.
  intros h x y z [->|(c & A & B)] [->|(c' & A' & B')]; try (left; reflexivity); try (right; eauto; fail).
  right. exists c. split; congruence.
Qed.
Lemma layer_mono : forall h (R S : ev -> ev -> Prop) x y, (forall u v, R u v -> S u v) -> layer h R x y -> layer h S x y.
Proof.
  intros h R S x y M [L|[(p & q & a & d & a' & d' & -> & -> & E & F & A & B)|(p & q & xs & ys & -> & -> & E & F & A)]].
  - left. exact L.
  - right. left. exists p, q, a, d, a', d'. auto 10.
  - right. right. exists p, q, xs, ys. repeat split; auto. clear -A M. induction A; constructor; auto.
Qed.
Lemma Forall2_sym : forall {A} (R S : A -> A -> Prop) xs ys, (forall x y, R x y -> S y x) -> Forall2 R xs ys -> Forall2 S ys xs.
Proof. intros A R S xs ys M H. induction H; constructor; auto. Qed.
Lemma Forall2_trans_ : forall {A} (R S T : A -> A -> Prop) xs ys zs, (forall x y z, R x y -> S y z -> T x z) ->
  Forall2 R xs ys -> Forall2 S ys zs -> Forall2 T xs zs.
Proof. intros A R S T xs ys zs M H. revert zs. induction H; intros zs H'; inversion H'; subst; constructor; eauto. Qed.
Lemma agree_refl : forall n h x, agree n h x x.
Proof. intros [|n] h x; cbn; [exact I|]. left. apply leaf_refl. Qed.
Lemma agree_sym : forall n h x y, agree n h x y -> agree n h y x.
Proof.
  induction n as [|n IH]; intros h x y H; cbn in *; [exact I|].
  destruct H as [L|[(p & q & a & d & a' & d' & -> & -> & E & F & A & B)|(p & q & xs & ys & -> & -> & E & F & A)]].
  - left. apply leaf_sym. exact L.
  - right. left. exists q, p, a', d', a, d. repeat split; auto.
  - right. right. exists q, p, ys, xs. repeat split; auto. eapply Forall2_sym; [|exact A]. auto.
Qed.
Lemma agree_trans : forall n h x y z, agree n h x y -> agree n h y z -> agree n h x z.
Proof.
  induction n as [|n IH]; intros h x y z H H'; cbn in *; [exact I|].
  destruct H as [L|[(p & q & a & d & a' & d' & -> & -> & E & F & A & B)|(p & q & xs & ys & -> & -> & E & F & A)]].
  - destruct H' as [L'|[(p & q & a & d & a' & d' & -> & -> & E & F & A & B)|(p & q & xs & ys & -> & -> & E & F & A)]].
    + left. eapply leaf_trans; eassumption.
    + destruct L as [->|(c & _ & C)]; [|cbn in C; rewrite E in C; discriminate].
      right. left. exists p, q, a, d, a', d'. auto 10.
    + destruct L as [->|(c & _ & C)]; [|cbn in C; rewrite E in C; discriminate].
      right. right. exists p, q, xs, ys. auto 10.
  - right. left. destruct H' as [L'|[(p2 & q2 & a2 & d2 & a3 & d3 & Q & -> & E2 & F2 & A2 & B2)|(p2 & q2 & xs & ys & Q & -> & E2 & F2 & A2)]].
    + destruct L' as [<-|(c & C & _)]; [|cbn in C; rewrite F in C; discriminate].
      exists p, q, a, d, a', d'. auto 10.
    + injection Q as <-. rewrite F in E2. injection E2 as <- <-.
      exists p, q2, a, d, a3, d3. repeat split; eauto.
    + injection Q as <-. rewrite F in E2. discriminate.
  - right. right. destruct H' as [L'|[(p2 & q2 & a2 & d2 & a3 & d3 & Q & -> & E2 & F2 & A2 & B2)|(p2 & q2 & xs2 & ys2 & Q & -> & E2 & F2 & A2)]].
    + destruct L' as [<-|(c & C & _)]; [|cbn in C; rewrite F in C; discriminate].
      exists p, q, xs, ys. auto 10.
    + injection Q as <-. rewrite F in E2. discriminate.
    + injection Q as <-. rewrite F in E2. injection E2 as <-.
      exists p, q2, xs, ys2. repeat split; auto. eapply Forall2_trans_; [|exact A|exact A2]. eauto.
Qed.
Lemma same_refl : forall h x, same_tree h x x. Proof. intros h x n. apply agree_refl. Qed.
Lemma same_sym : forall h x y, same_tree h x y -> same_tree h y x. Proof. intros h x y H n. apply agree_sym, H. Qed.
Lemma same_trans : forall h x y z, same_tree h x y -> same_tree h y z -> same_tree h x z.
Proof. intros h x y z H H' n. eapply agree_trans; [apply H|apply H']. Qed.

Lemma content_dec : forall a b : content, {a = b} + {a <> b}.
Proof. repeat decide equality. Qed.
Lemma leaf_dec : forall h x y, leaf_eq h x y \/ ~ leaf_eq h x y.
Proof.
  intros h x y. destruct (eqw x y) eqn:E. { left. left. apply eqw_iff. exact E. }
  destruct (content_of h x) as [c|] eqn:Cx.
  - destruct (content_of h y) as [c'|] eqn:Cy.
    + destruct (content_dec c c') as [->|N]; [left; right; eauto|].
      right. intros [->|(k & A & B)]; [rewrite eqw_refl in E; discriminate|]. congruence.
    + right. intros [->|(k & A & B)]; [rewrite eqw_refl in E; discriminate|]. congruence.
  - right. intros [->|(k & A & B)]; [rewrite eqw_refl in E; discriminate|]. congruence.
Qed.
Lemma Forall2_forall : forall {A} (R : nat -> A -> A -> Prop) xs ys,
  (forall n, Forall2 (R n) xs ys) -> Forall2 (fun x y => forall n, R n x y) xs ys.
Proof.
  induction xs as [|x xs IH]; intros ys H.
  - pose proof (H 0) as H0. inversion H0; subst. constructor.
  - pose proof (H 0) as H0. inversion H0; subst. constructor.
    + intros n. pose proof (H n) as Hn. inversion Hn; subst. assumption.
    + apply IH. intros n. pose proof (H n) as Hn. inversion Hn; subst. assumption.
Qed.
(** same_tree is a fixed point of [layer] *)
Lemma same_unfold : forall h x y, same_tree h x y -> layer h (same_tree h) x y.
Proof.
  intros h x y H. destruct (leaf_dec h x y) as [L|L]; [left; exact L|].
  pose proof (H 1) as H1. cbn in H1.
  destruct H1 as [C|[(p & q & a & d & a' & d' & -> & -> & E & F & _)|(p & q & xs & ys & -> & -> & E & F & _)]]; [contradiction| |].
  - right. left. exists p, q, a, d, a', d'. repeat split; auto; intros n;
      (destruct (H (S n)) as [C|[(p2 & q2 & a2 & d2 & a3 & d3 & Q & Q' & E2 & F2 & A & B)|(p2 & q2 & xs & ys & Q & Q' & E2 & F2 & A)]];
       [contradiction|injection Q as <-; injection Q' as <-; rewrite E in E2; rewrite F in F2; injection E2 as <- <-; injection F2 as <- <-; assumption
       |injection Q as <-; congruence]).
  - right. right. exists p, q, xs, ys. repeat split; auto. apply Forall2_forall. intros n.
      (destruct (H (S n)) as [C|[(p2 & q2 & a2 & d2 & a3 & d3 & Q & Q' & E2 & F2 & A & B)|(p2 & q2 & xs2 & ys2 & Q & Q' & E2 & F2 & A)]];
       [contradiction|injection Q as <-; congruence|injection Q as <-; injection Q' as <-]).
      rewrite E in E2; rewrite F in F2; injection E2 as <-; injection F2 as <-; assumption.
Qed.
Lemma bisim_same : forall h (R : ev -> ev -> Prop), (forall x y, R x y -> layer h R x y) -> forall x y, R x y -> same_tree h x y.
Proof.
  intros h R H x y HR n. revert x y HR. induction n as [|n IH]; intros x y HR; cbn; [exact I|].
  eapply layer_mono; [|apply H; exact HR]. exact IH.
Qed.

(** what eqv? should decide: leaves, and vectors elementwise *)
Definition atom (h : eheap) (x y : ev) : Prop :=
  leaf_eq h x y \/
  (exists p q xs ys, x = EPtr p /\ y = EPtr q /\ nth_error h p = Some (EVec xs) /\ nth_error h q = Some (EVec ys) /\ Forall2 (same_tree h) xs ys).
Lemma atom_same : forall h x y, atom h x y -> same_tree h x y.
Proof.
  intros h x y H n. destruct n as [|n]; [exact I|]. cbn. destruct H as [L|(p & q & xs & ys & -> & -> & E & F & A)].
  - left. exact L.
  - right. right. exists p, q, xs, ys. repeat split; auto. clear -A. induction A; constructor; auto.
Qed.
Lemma atom_refl : forall h x, atom h x x. Proof. intros. left. apply leaf_refl. Qed.
Lemma atom_sym : forall h x y, atom h x y -> atom h y x.
Proof.
  intros h x y [L|(p & q & xs & ys & -> & -> & E & F & A)]; [left; apply leaf_sym; exact L|].
  right. exists q, p, ys, xs. repeat split; auto. eapply Forall2_sym; [|exact A]. apply same_sym.
Qed.
Lemma atom_trans : forall h x y z, atom h x y -> atom h y z -> atom h x z.
Proof.
  intros h x y z [L|(p & q & xs & ys & -> & -> & E & F & A)] [L'|(p' & q' & xs' & ys' & Q & -> & E' & F' & A')].
  - left. eapply leaf_trans; eassumption.
  - subst y. destruct L as [->|(c & _ & C)]; [|cbn in C; rewrite E' in C; discriminate]. right. exists p', q', xs', ys'. auto 10.
  - destruct L' as [<-|(c & C & _)]; [|cbn in C; rewrite F in C; discriminate]. right. exists p, q, xs, ys. auto 10.
  - injection Q as <-. rewrite F in E'. injection E' as <-. right. exists p, q', xs, ys'. repeat split; auto.
    eapply Forall2_trans_; [|exact A|exact A']. apply same_trans.
Qed.
Lemma atom_pair : forall h p a d y, nth_error h p = Some (EPair a d) -> atom h (EPtr p) y -> y = EPtr p.
Proof.
  intros h p a d y E [[<-|(c & C & _)]|(p' & q & xs & ys & Q & -> & E' & _)]; [reflexivity| |].
  - cbn in C. rewrite E in C. discriminate.
  - injection Q as <-. congruence.
Qed.

(** ** eqv? *)
Lemma all_equal_spec : forall rec (P : ev -> ev -> Prop) xs ys, length xs = length ys ->
  (forall x y, In x xs -> exists b, rec x y = Done b /\ (b = true <-> P x y)) ->
  exists b, all_equal rec xs ys = Done b /\ (b = true <-> Forall2 P xs ys).
Proof.
  intros rec P. induction xs as [|x xs IH]; intros [|y ys] L H; cbn in L; try lia; cbn [all_equal].
  - exists true. split; [reflexivity|]. split; constructor.
  - destruct (H x y (or_introl eq_refl)) as (b & -> & Hb). cbn [rbind]. destruct b.
    + destruct (IH ys ltac:(lia)) as (b & -> & Hb'). { intros u v Hu. apply H. right. exact Hu. }
      exists b. split; [reflexivity|]. rewrite Hb'. split; intros F; [constructor; [apply Hb; reflexivity|exact F]|inversion F; assumption].
    + exists false. split; [reflexivity|]. split; [discriminate|]. intros F. inversion F; subst. apply Hb. assumption.
Qed.
Lemma eqv_spec : forall rec h x y, uniform h ->
  (forall p xs u v, x = EPtr p -> nth_error h p = Some (EVec xs) -> In u xs -> exists b, rec u v = Done b /\ (b = true <-> same_tree h u v)) ->
  exists b, eqv_ rec h x y = Done b /\ (b = true <-> atom h x y).
Proof.
  intros rec h x y U H. unfold eqv_. destruct (eqw x y) eqn:E.
  { exists true. split; [reflexivity|]. apply eqw_iff in E. subst. split; [intros _; apply atom_refl|reflexivity]. }
  assert (Ne : x <> y) by (intros ->; rewrite eqw_refl in E; discriminate).
  unfold object_eqv, exact_integer_equals.
  destruct x as [|a|a|p]; cbn [at_addr int_value].
  - rewrite E. cbn. exists false. split; [reflexivity|]. split; [discriminate|].
    intros [[Q|(c & C & _)]|(p' & q' & xs & ys & Q & _)]; [congruence|discriminate|discriminate].
  - rewrite E. cbn [rbind]. destruct y as [|b|b|q]; cbn [int_value].
    + exists false. split; [reflexivity|]. split; [discriminate|].
      intros [[Q|(c & _ & C)]|(p' & q' & xs & ys & Q & _)]; [congruence|discriminate|discriminate].
    + exists (Z.eqb a b). split; [reflexivity|]. cbn in E. rewrite E. split; [discriminate|].
      intros [[Q|(c & C & C')]|(p' & q' & xs & ys & Q & _)]; [congruence|cbn in C, C'; congruence|discriminate].
    + exists false. split; [reflexivity|]. split; [discriminate|].
      intros [[Q|(c & _ & C)]|(p' & q' & xs & ys & Q & _)]; [congruence|discriminate|discriminate].
    + destruct (nth_error h q) as [[]|] eqn:Eq; try (exists false; split; [reflexivity|]; split; [discriminate|];
        intros [[Q|(c & C & C')]|(p' & q' & xs0 & ys & Q & _)]; [congruence|cbn in C, C'; rewrite Eq in C'; congruence|discriminate]).
      exists (Z.eqb a z). split; [reflexivity|]. rewrite Z.eqb_eq. split.
      * intros ->. left. right. exists (CInt z). cbn. rewrite Eq. auto.
      * intros [[Q|(c & C & C')]|(p' & q' & xs & ys & Q & _)]; [congruence|cbn in C, C'; rewrite Eq in C'; congruence|discriminate].
  - rewrite E. cbn. exists false. split; [reflexivity|]. split; [discriminate|].
    intros [[Q|(c & C & _)]|(p' & q' & xs & ys & Q & _)]; [congruence|discriminate|discriminate].
  - destruct (nth_error h p) as [o|] eqn:Ep.
    2:{ rewrite E. cbn. exists false. split; [reflexivity|]. split; [discriminate|].
        intros [[Q|(c & C & _)]|(p' & q' & xs & ys & Q & _ & E' & _)]; [congruence|cbn in C; rewrite Ep in C; discriminate|congruence]. }
    (* y not on the heap *)
    destruct (at_addr h y) as [oy|] eqn:Ey.
    2:{ assert (Match : match o with
             | EPair _ _ => Done (eqw (EPtr p) y) | EVec xs => Done false | EText s => Done false | ELarge a => Done false
             | ERatio a b => Done false | EBytes k s => Done false | ECell c a d => Done false | EOpaque => Done false end = Done false)
          by (destruct o; rewrite ?E; reflexivity).
        rewrite Match. cbn [rbind].
        destruct (match o with ELarge z => Some z | _ => None end) as [z|] eqn:Io.
        - destruct o; try discriminate. injection Io as ->.
          destruct y as [|b|b|q]; cbn [int_value].
          + exists false. split; [reflexivity|]. split; [discriminate|].
            intros [[Q|(c & _ & C)]|(p' & q' & xs & ys & Q & Q' & _)]; [congruence|discriminate|discriminate].
          + exists (Z.eqb z b). split; [reflexivity|]. rewrite Z.eqb_eq. split.
            * intros ->. left. right. exists (CInt b). cbn. rewrite Ep. auto.
            * intros [[Q|(c & C & C')]|(p' & q' & xs & ys & Q & Q' & _)]; [congruence|cbn in C, C'; rewrite Ep in C; congruence|discriminate].
          + exists false. split; [reflexivity|]. split; [discriminate|].
            intros [[Q|(c & _ & C)]|(p' & q' & xs & ys & Q & Q' & _)]; [congruence|discriminate|discriminate].
          + cbn in Ey. rewrite Ey. exists false. split; [reflexivity|]. split; [discriminate|].
            intros [[Q|(c & _ & C)]|(p' & q' & xs & ys & Q & Q' & _ & F' & _)]; [congruence|cbn in C; rewrite Ey in C; discriminate|congruence].
        - exists false. split; [reflexivity|]. split; [discriminate|].
          intros [[Q|(c & C & C')]|(p' & q' & xs & ys & Q & Q' & _ & F' & _)]; [congruence| |subst y; cbn in Ey; congruence].
          destruct y as [|b|b|q]; try discriminate.
          + cbn in C, C'. rewrite Ep in C. destruct o; congruence.
          + cbn in C', Ey. rewrite Ey in C'. discriminate. }
    destruct y as [| | |q]; try discriminate. cbn in Ey. cbn [int_value]. rewrite Ey.
    assert (NP : p <> q) by congruence.
    destruct o; destruct oy; rewrite ?E; cbn [rbind];
      try (exists false; split; [reflexivity|]; split; [discriminate|];
           intros [[Q|(c & C & C')]|(p' & q' & xs' & ys' & Q & Q' & E' & F' & A)];
           [congruence|cbn in C, C'; rewrite Ep in C; rewrite Ey in C'; congruence
           |injection Q as <-; injection Q' as <-; congruence]; fail).
    + (* vectors *)
      destruct (Nat.eqb_spec (length xs) (length xs0)) as [L|L].
      * destruct (all_equal_spec rec (same_tree h) xs xs0 L) as (b & -> & Hb).
        { intros u v Hu. apply (H p xs u v eq_refl Ep Hu). }
        cbn [rbind]. exists b. split; [destruct b; reflexivity|]. rewrite Hb. split.
        -- intros F. right. exists p, q, xs, xs0. auto 10.
        -- intros [[Q|(c & C & _)]|(p' & q' & xs' & ys' & Q & Q' & E' & F' & A)]; [congruence|cbn in C; rewrite Ep in C; discriminate|].
           injection Q as <-; injection Q' as <-. congruence.
      * cbn [rbind]. exists false. split; [reflexivity|]. split; [discriminate|].
        intros [[Q|(c & C & _)]|(p' & q' & xs' & ys' & Q & Q' & E' & F' & A)]; [congruence|cbn in C; rewrite Ep in C; discriminate|].
        injection Q as <-; injection Q' as <-. rewrite Ep in E'. rewrite Ey in F'. injection E' as <-. injection F' as <-.
        clear -A L. exfalso. apply L. induction A; cbn; auto. rewrite IHA; [reflexivity|]. intros X. apply L. cbn. congruence.
    + exists (zs_eqb s s0). split; [destruct (zs_eqb s s0); reflexivity|]. rewrite zs_eqb_iff. split.
      * intros ->. left. right. eexists. cbn. rewrite Ep, Ey. auto.
      * intros [[Q|(c & C & C')]|(p' & q' & xs' & ys' & Q & Q' & E' & F' & A)]; [congruence|cbn in C, C'; rewrite Ep in C; rewrite Ey in C'; congruence|].
        injection Q as <-. congruence.
    + exists (Z.eqb z z0). split; [destruct (Z.eqb z z0); reflexivity|]. rewrite Z.eqb_eq. split.
      * intros ->. left. right. eexists. cbn. rewrite Ep, Ey. auto.
      * intros [[Q|(c & C & C')]|(p' & q' & xs' & ys' & Q & Q' & E' & F' & A)]; [congruence|cbn in C, C'; rewrite Ep in C; rewrite Ey in C'; congruence|].
        injection Q as <-. congruence.
    + exists (Z.eqb n n0 && Z.eqb d d0)%bool. split; [destruct (Z.eqb n n0 && Z.eqb d d0)%bool; reflexivity|].
      rewrite andb_true_iff, !Z.eqb_eq. split.
      * intros [-> ->]. left. right. eexists. cbn. rewrite Ep, Ey. auto.
      * intros [[Q|(c & C & C')]|(p' & q' & xs' & ys' & Q & Q' & E' & F' & A)]; [congruence|cbn in C, C'; rewrite Ep in C; rewrite Ey in C'|].
        -- split; congruence.
        -- injection Q as <-. congruence.
    + destruct (Nat.eqb_spec kind kind0) as [->|NK].
      * rewrite (U p q kind0 xs xs0 Ep Ey), Nat.eqb_refl. cbn [rbind].
        exists (zs_eqb xs xs0). split; [destruct (zs_eqb xs xs0); reflexivity|]. rewrite zs_eqb_iff. split.
        -- intros ->. left. right. eexists. cbn. rewrite Ep, Ey. auto.
        -- intros [[Q|(c & C & C')]|(p' & q' & xs' & ys' & Q & Q' & E' & F' & A)]; [congruence|cbn in C, C'; rewrite Ep in C; rewrite Ey in C'; congruence|].
           injection Q as <-. congruence.
      * cbn [rbind]. exists false. split; [reflexivity|]. split; [discriminate|].
        intros [[Q|(c & C & C')]|(p' & q' & xs' & ys' & Q & Q' & E' & F' & A)]; [congruence|cbn in C, C'; rewrite Ep in C; rewrite Ey in C'; congruence|].
        injection Q as <-. congruence.
    + set (b := (Nat.eqb class class0 && (eqw a a0 && eqw d d0))%bool).
      exists b. split; [destruct b; reflexivity|]. unfold b. rewrite !andb_true_iff, Nat.eqb_eq, !eqw_iff. split.
      * intros (-> & -> & ->). left. right. eexists. cbn. rewrite Ep, Ey. auto.
      * intros [[Q|(c & C & C')]|(p' & q' & xs' & ys' & Q & Q' & E' & F' & A)]; [congruence|cbn in C, C'; rewrite Ep in C; rewrite Ey in C'|].
        -- repeat split; congruence.
        -- injection Q as <-. congruence.
Qed.

(** ** The forest *)
(** [n] steps lead from box [b] to its root [r] *)
Inductive leads (l : list slot) : nat -> nat -> nat -> Prop :=
| leads_root b k : nth_error l b = Some (Rank k) -> leads l b 0 b
| leads_up b c n r : nth_error l b = Some (Up c) -> leads l c n r -> leads l b (S n) r.
Lemma leads_det : forall l b n r, leads l b n r -> forall m s, leads l b m s -> n = m /\ r = s.
Proof.
  intros l b n r H. induction H as [b k E|b c n r E H IH]; intros m s H'; inversion H'; subst; try congruence.
  - auto.
  - rewrite E in H0. injection H0 as <-. destruct (IH _ _ H1) as [-> ->]. auto.
Qed.
Lemma leads_is_root : forall l b n r, leads l b n r -> exists k, nth_error l r = Some (Rank k).
Proof. intros l b n r H. induction H; eauto. Qed.
Lemma leads_bound : forall l b n r, leads l b n r -> n < length l.
Proof.
  intros l.
  assert (P : forall b n r, leads l b n r -> exists path, length path = S n /\ NoDup path /\ incl path (seq 0 (length l)) /\
                (forall c, In c path -> exists m, m <= n /\ leads l c m r)).
  { intros b n r H. induction H as [b k E|b c n r E H (path & L & ND & Inc & Sub)].
    - exists [b]. repeat split; [constructor; [tauto|constructor]| |].
      + intros x [<-|[]]. apply in_seq. assert (b < length l) by (apply nth_error_Some; congruence). lia.
      + intros c [<-|[]]. exists 0. split; [lia|]. econstructor; eassumption.
    - exists (b :: path). repeat split; [cbn; lia|constructor; [|exact ND]| |].
      + intros I. destruct (Sub b I) as (m & Lm & Hm).
        pose proof (leads_up _ _ _ _ _ E H) as Hb. destruct (leads_det _ _ _ _ Hb _ _ Hm). lia.
      + intros x [<-|I]; [|apply Inc; exact I]. apply in_seq. assert (b < length l) by (apply nth_error_Some; congruence). lia.
      + intros x [<-|I]; [exists (S n); split; [lia|econstructor; eassumption]|].
        destruct (Sub x I) as (m & Lm & Hm). exists m. split; [lia|exact Hm]. }
  intros b n r H. destruct (P b n r H) as (path & L & ND & Inc & _).
  apply NoDup_incl_length in Inc; [|exact ND]. rewrite seq_length in Inc. lia.
Qed.
Lemma store_nth : forall l p o q, nth_error (store l p o) q =
  if Nat.eqb p q then match nth_error l q with Some _ => Some o | None => None end else nth_error l q.
Proof.
  induction l as [|x l IH]; intros [|p] o [|q]; cbn; try reflexivity.
  - destruct (Nat.eqb p q); reflexivity.
  - rewrite IH. destruct (Nat.eqb p q); reflexivity.
Qed.
Lemma store_length : forall l p o, length (store l p o) = length l.
Proof. induction l as [|x l IH]; intros [|p] o; cbn; auto. Qed.

(** two box lists with the same roots *)
Definition same_roots (l l' : list slot) : Prop :=
  length l' = length l /\ (forall b n r, leads l b n r -> exists n', leads l' b n' r).
Lemma same_roots_refl : forall l, same_roots l l. Proof. split; eauto. Qed.
Lemma same_roots_trans : forall a b c, same_roots a b -> same_roots b c -> same_roots a c.
Proof. intros a b c (L & H) (L' & H'). split; [congruence|]. intros x n r Hx. destruct (H _ _ _ Hx) as (m & Hm). eauto. Qed.
Lemma compress : forall l b n r, leads l b (S n) r -> same_roots l (store l b (Up r)).
Proof.
  intros l b n r H. split; [apply store_length|]. intros c m s Hc.
  destruct (leads_is_root _ _ _ _ H) as (k & Ek).
  assert (Nb : r <> b) by (intros ->; inversion H; congruence).
  assert (Er : nth_error (store l b (Up r)) r = Some (Rank k)).
  { rewrite store_nth. destruct (Nat.eqb_spec b r); [congruence|exact Ek]. }
  induction Hc as [c k' E|c d m s E Hc IH].
  - exists 0. econstructor. rewrite store_nth. destruct (Nat.eqb_spec b c) as [->|]; [|exact E].
    inversion H; congruence.
  - destruct (Nat.eq_dec b c) as [->|Nc].
    + assert (s = r) by (eapply leads_det; [eapply leads_up; eassumption|exact H]). subst s.
      exists 1. eapply leads_up; [|econstructor; exact Er]. rewrite store_nth, Nat.eqb_refl, E. reflexivity.
    + destruct IH as (m' & IH). exists (S m'). eapply leads_up; [|exact IH].
      rewrite store_nth. destruct (Nat.eqb_spec b c); [congruence|exact E].
Qed.
Lemma find_spec : forall n l b r, leads l b n r -> forall fuel, n < fuel ->
  exists l', find fuel l b = Done (r, l') /\ same_roots l l'.
Proof.
  induction n as [|n IH]; intros l b r H fuel L; (destruct fuel as [|fuel]; [lia|]); cbn [find]; inversion H as [b0 k E|b0 c n0 r0 E Hc]; subst.
  - rewrite E. exists l. split; [reflexivity|apply same_roots_refl].
  - rewrite E. destruct (IH l c r Hc fuel ltac:(lia)) as (l' & -> & S). cbn [rbind].
    eexists. split; [reflexivity|]. eapply same_roots_trans; [exact S|].
    destruct S as (_ & S). destruct (S _ _ _ H) as (m & Hm). destruct m as [|m].
    + exfalso. inversion Hm; subst.
      destruct (leads_is_root _ _ _ _ H) as (k' & Ek'). congruence.
    + eapply compress. exact Hm.
Qed.

(** attaching root [x] below root [y] *)
Lemma attach : forall l l' x y, x <> y -> (exists k, nth_error l x = Some (Rank k)) -> (exists k, nth_error l y = Some (Rank k)) ->
  nth_error l' x = Some (Up y) -> (exists k, nth_error l' y = Some (Rank k)) ->
  (forall c, c <> x -> c <> y -> nth_error l' c = nth_error l c) ->
  forall b n r, leads l b n r -> exists n', leads l' b n' (if Nat.eqb r x then y else r).
Proof.
  intros l l' x y N (kx & Ex) (ky & Ey) Ex' (ky' & Ey') Same b n r H.
  induction H as [b k E|b c n r E H (n' & IH)].
  - destruct (Nat.eqb_spec b x) as [->|Nx].
    + exists 1. eapply leads_up; [exact Ex'|econstructor; exact Ey'].
    + destruct (Nat.eq_dec b y) as [->|Ny]; exists 0; econstructor; [exact Ey'|rewrite Same by assumption; exact E].
  - exists (S n'). eapply leads_up; [|exact IH]. rewrite Same; [exact E| |]; congruence.
Qed.

(** ** The relation a forest stands for *)
Definition related (f : forest) (p q : nat) : Prop :=
  p = q \/ exists bp bq n m r, lookup (entry_of f) p = Some bp /\ lookup (entry_of f) q = Some bq /\
             leads (boxes f) bp n r /\ leads (boxes f) bq m r.
Definition good (h : eheap) (f : forest) : Prop :=
  (forall p b, lookup (entry_of f) p = Some b -> (exists n r, leads (boxes f) b n r) /\ exists a d, nth_error h p = Some (EPair a d)).
Lemma related_refl : forall f p, related f p p. Proof. left. reflexivity. Qed.
Lemma related_sym : forall f p q, related f p q -> related f q p.
Proof. intros f p q [->|(bp & bq & n & m & r & A & B & C & D)]; [left; reflexivity|right]. exists bq, bp, m, n, r. auto. Qed.
Lemma related_trans : forall f p q s, related f p q -> related f q s -> related f p s.
Proof.
  intros f p q s [->|(bp & bq & n & m & r & A & B & C & D)] H; [exact H|].
  destruct H as [<-|(bq' & bs & n' & m' & r' & A' & B' & C' & D')]; [right; exists bp, bq, n, m, r; auto|].
  rewrite B in A'. injection A' as <-. destruct (leads_det _ _ _ _ D _ _ C') as [_ <-].
  right. exists bp, bs, n, m', r. auto.
Qed.
Definition edge (x y p q : nat) : Prop := p = x /\ q = y.
Definition joined (f : forest) (x y : nat) := clos_refl_sym_trans nat (fun p q => related f p q \/ edge x y p q).

Lemma same_roots_related : forall m l l' p q, same_roots l l' -> related (Forest m l) p q -> related (Forest m l') p q.
Proof.
  intros m l l' p q (_ & S) [->|(bp & bq & n & k & r & A & B & C & D)]; [left; reflexivity|right].
  cbn in *. destruct (S _ _ _ C) as (n' & C'), (S _ _ _ D) as (k' & D'). exists bp, bq, n', k', r. auto.
Qed.
Lemma same_roots_related_inv : forall h m l l' p q, good h (Forest m l) -> same_roots l l' -> related (Forest m l') p q -> related (Forest m l) p q.
Proof.
  intros h m l l' p q G (_ & S) [->|(bp & bq & n & k & r & A & B & C & D)]; [left; reflexivity|right].
  cbn in *. destruct (G p bp A) as ((n1 & r1 & L1) & _), (G q bq B) as ((n2 & r2 & L2) & _). cbn in *.
  destruct (S _ _ _ L1) as (n1' & L1'), (S _ _ _ L2) as (n2' & L2').
  destruct (leads_det _ _ _ _ C _ _ L1') as [_ ->], (leads_det _ _ _ _ D _ _ L2') as [_ ->].
  exists bp, bq, n1, n2, r2. auto.
Qed.
Lemma same_roots_good : forall h m l l', same_roots l l' -> good h (Forest m l) -> good h (Forest m l').
Proof.
  intros h m l l' (_ & S) G p b E. destruct (G p b E) as ((n & r & L) & P). split; [|exact P].
  destruct (S _ _ _ L) as (n' & L'). cbn. eauto.
Qed.

(** merging two trees *)
Lemma merge_related : forall h m l l' x y bx by_ nx ny rx ry, good h (Forest m l) ->
  lookup m x = Some bx -> lookup m y = Some by_ -> leads l bx nx rx -> leads l by_ ny ry ->
  (forall b n r, leads l b n r -> exists n', leads l' b n' (if Nat.eqb r rx then ry else r)) ->
  rx <> ry ->
  good h (Forest m l') /\ (forall p q, related (Forest m l) p q -> related (Forest m l') p q) /\ related (Forest m l') x y /\
  (forall p q, related (Forest m l') p q -> joined (Forest m l) x y p q).
Proof.
  intros h m l l' x y bx by_ nx ny rx ry G Ex Ey Lx Ly M N.
  assert (Mono : forall p q, related (Forest m l) p q -> related (Forest m l') p q).
  { intros p q [->|(bp & bq & n & k & r & A & B & C & D)]; [left; reflexivity|right]. cbn in *.
    destruct (M _ _ _ C) as (n' & C'), (M _ _ _ D) as (k' & D'). exists bp, bq, n', k', (if Nat.eqb r rx then ry else r). auto. }
  repeat match goal with |- _ /\ _ => split end.
  - intros p b E. destruct (G p b E) as ((n & r & L) & P). split; [|exact P]. destruct (M _ _ _ L) as (n' & L'). cbn. eauto.
  - exact Mono.
  - right. cbn. destruct (M _ _ _ Lx) as (n' & L'), (M _ _ _ Ly) as (k' & K'). rewrite Nat.eqb_refl in L'.
    destruct (Nat.eqb_spec ry rx); [congruence|]. exists bx, by_, n', k', ry. auto.
  - intros p q [->|(bp & bq & n & k & r & A & B & C & D)]; [apply rst_refl|]. cbn in *.
    destruct (G p bp A) as ((n1 & r1 & L1) & _), (G q bq B) as ((n2 & r2 & L2) & _). cbn in *.
    destruct (M _ _ _ L1) as (n1' & L1'), (M _ _ _ L2) as (n2' & L2').
    destruct (leads_det _ _ _ _ C _ _ L1') as [_ R1], (leads_det _ _ _ _ D _ _ L2') as [_ R2].
    assert (Px : r1 = rx -> joined (Forest m l) x y p x).
    { intros ->. apply rst_step. left. right. exists bp, bx, n1, nx, rx. cbn. auto. }
    assert (Qx : r2 = rx -> joined (Forest m l) x y q x).
    { intros ->. apply rst_step. left. right. exists bq, bx, n2, nx, rx. cbn. auto. }
    assert (Py : r1 = ry -> joined (Forest m l) x y p y).
    { intros ->. apply rst_step. left. right. exists bp, by_, n1, ny, ry. cbn. auto. }
    assert (Qy : r2 = ry -> joined (Forest m l) x y q y).
    { intros ->. apply rst_step. left. right. exists bq, by_, n2, ny, ry. cbn. auto. }
    assert (XY : joined (Forest m l) x y x y) by (apply rst_step; right; split; reflexivity).
    destruct (Nat.eqb_spec r1 rx), (Nat.eqb_spec r2 rx).
    + eapply rst_trans; [apply Px; assumption|apply rst_sym, Qx; assumption].
    + eapply rst_trans; [apply Px; assumption|]. eapply rst_trans; [exact XY|apply rst_sym, Qy; congruence].
    + eapply rst_trans; [apply Py; congruence|]. eapply rst_trans; [apply rst_sym; exact XY|apply rst_sym, Qx; assumption].
    + apply rst_step. left. right. exists bp, bq, n1, n2, r1. cbn. assert (r2 = r1) by congruence. subst. auto.
Qed.
Lemma joined_sym : forall f x y p q, joined f y x p q -> joined f x y p q.
Proof.
  intros f x y p q H. induction H as [p q [R|[-> ->]]| | |].
  - apply rst_step. left. exact R.
  - apply rst_sym, rst_step. right. split; reflexivity.
  - apply rst_refl.
  - apply rst_sym. assumption.
  - eapply rst_trans; eassumption.
Qed.

(** registering a new pair [y] next to [x] *)
Lemma register_related : forall h m l x y bx nx rx a d, good h (Forest m l) -> lookup m x = Some bx -> lookup m y = None ->
  leads l bx nx rx -> nth_error h y = Some (EPair a d) ->
  good h (Forest ((y, rx) :: m) l) /\ (forall p q, related (Forest m l) p q -> related (Forest ((y, rx) :: m) l) p q) /\
  related (Forest ((y, rx) :: m) l) x y /\
  (forall p q, related (Forest ((y, rx) :: m) l) p q -> joined (Forest m l) x y p q).
Proof.
  intros h m l x y bx nx rx a d G Ex Ey Lx Py.
  destruct (leads_is_root _ _ _ _ Lx) as (k & Ek). assert (Lr : leads l rx 0 rx) by (econstructor; exact Ek).
  assert (Old : forall p b, lookup m p = Some b -> lookup ((y, rx) :: m) p = Some b).
  { intros p b E. cbn. destruct (Nat.eqb_spec y p) as [->|]; [congruence|exact E]. }
  repeat match goal with |- _ /\ _ => split end.
  - intros p b E. cbn in E. destruct (Nat.eqb_spec y p) as [->|].
    + injection E as <-. cbn. split; eauto.
    + apply (G p b E).
  - intros p q [->|(bp & bq & n & j & r & A & B & C & D)]; [left; reflexivity|right]. cbn [entry_of boxes] in *.
    exists bp, bq, n, j, r. auto.
  - right. exists bx, rx, nx, 0, rx. cbn [entry_of boxes]. repeat split; auto. cbn. rewrite Nat.eqb_refl. reflexivity.
  - assert (XY : joined (Forest m l) x y x y) by (apply rst_step; right; split; reflexivity).
    assert (One : forall p b n r, lookup ((y, rx) :: m) p = Some b -> leads l b n r ->
       exists p' b' n', lookup m p' = Some b' /\ leads l b' n' r /\ joined (Forest m l) x y p p').
    { intros p b n r E L. cbn in E. destruct (Nat.eqb_spec y p) as [->|].
      - injection E as <-. destruct (leads_det _ _ _ _ L _ _ Lr) as [_ ->]. exists x, bx, nx. repeat split; auto. apply rst_sym. exact XY.
      - exists p, b, n. repeat split; auto. apply rst_refl. }
    intros p q [->|(bp & bq & n & j & r & A & B & C & D)]; [apply rst_refl|]. cbn [entry_of boxes] in *.
    destruct (One p bp n r A C) as (p' & bp' & n' & A' & C' & J), (One q bq j r B D) as (q' & bq' & j' & B' & D' & J').
    eapply rst_trans; [exact J|]. eapply rst_trans; [|apply rst_sym; exact J']. apply rst_step. left. right. exists bp', bq', n', j', r. auto.
Qed.
Lemma register_both_related : forall h m l x y a d a' d', good h (Forest m l) -> lookup m x = None -> lookup m y = None ->
  nth_error h x = Some (EPair a d) -> nth_error h y = Some (EPair a' d') ->
  let f' := Forest ((x, length l) :: (y, length l) :: m) (l ++ [Rank 1]) in
  good h f' /\ (forall p q, related (Forest m l) p q -> related f' p q) /\ related f' x y /\
  (forall p q, related f' p q -> joined (Forest m l) x y p q).
Proof.
  intros h m l x y a d a' d' G Ex Ey Px Py f'.
  assert (Lb : forall b n r, leads l b n r -> leads (l ++ [Rank 1]) b n r).
  { intros b n r H. induction H as [b k E|b c n r E H IH]; econstructor; eauto; rewrite nth_error_app1; eauto; apply nth_error_Some; congruence. }
  assert (New : leads (l ++ [Rank 1]) (length l) 0 (length l)).
  { econstructor. rewrite nth_error_app2 by lia. rewrite Nat.sub_diag. reflexivity. }
  assert (Old : forall p b, lookup m p = Some b -> lookup (entry_of f') p = Some b).
  { intros p b E. cbn. destruct (Nat.eqb_spec x p) as [->|]; [congruence|]. destruct (Nat.eqb_spec y p) as [->|]; [congruence|exact E]. }
  assert (Fx : lookup (entry_of f') x = Some (length l)) by (cbn; rewrite Nat.eqb_refl; reflexivity).
  assert (Fy : lookup (entry_of f') y = Some (length l)) by (cbn; rewrite Nat.eqb_refl; destruct (Nat.eqb x y); reflexivity).
  repeat match goal with |- _ /\ _ => split end.
  - intros p b E. cbn in E. destruct (Nat.eqb_spec x p) as [->|]; [injection E as <-; cbn; split; eauto|].
    destruct (Nat.eqb_spec y p) as [->|]; [injection E as <-; cbn; split; eauto|].
    destruct (G p b E) as ((n1 & r & L) & P). split; [|exact P]. cbn. eauto.
  - intros p q [->|(bp & bq & n & j & r & A & B & C & D)]; [left; reflexivity|right]. exists bp, bq, n, j, r. cbn [boxes f']. auto 10.
  - right. exists (length l), (length l), 0, 0, (length l). auto.
  - assert (XY : joined (Forest m l) x y x y) by (apply rst_step; right; split; reflexivity).
    assert (One : forall p b, lookup (entry_of f') p = Some b ->
       (b = length l /\ joined (Forest m l) x y p x) \/ (lookup m p = Some b /\ exists n r, leads l b n r /\ leads (l ++ [Rank 1]) b n r /\ r <> length l)).
    { intros p b E. cbn in E. destruct (Nat.eqb_spec x p) as [->|]; [left; split; [congruence|apply rst_refl]|].
      destruct (Nat.eqb_spec y p) as [->|]; [left; split; [congruence|apply rst_sym; exact XY]|].
      right. split; [exact E|]. destruct (G p b E) as ((n1 & r & L) & _). cbn in L. exists n1, r. repeat split; auto.
      destruct (leads_is_root _ _ _ _ L) as (k & Ek). assert (r < length l) by (apply nth_error_Some; congruence). lia. }
    intros p q [->|(bp & bq & n & j & r & A & B & C & D)]; [apply rst_refl|]. cbn [boxes f'] in *.
    destruct (One p bp A) as [(-> & J)|(A' & n1 & r1 & L1 & L1' & N1)], (One q bq B) as [(-> & J')|(B' & n2 & r2 & L2 & L2' & N2)].
    + eapply rst_trans; [exact J|apply rst_sym; exact J'].
    + exfalso. destruct (leads_det _ _ _ _ C _ _ New) as [_ ->], (leads_det _ _ _ _ D _ _ L2') as [_ Q]. congruence.
    + exfalso. destruct (leads_det _ _ _ _ D _ _ New) as [_ ->], (leads_det _ _ _ _ C _ _ L1') as [_ Q]. congruence.
    + destruct (leads_det _ _ _ _ D _ _ L2') as [_ Q], (leads_det _ _ _ _ C _ _ L1') as [_ Q']. subst r1 r2.
      apply rst_step. left. right. exists bp, bq, n1, n2, r. cbn. auto.
Qed.

Lemma clos_mono : forall (R S : nat -> nat -> Prop) p q, (forall u v, R u v -> clos_refl_sym_trans nat S u v) ->
  clos_refl_sym_trans nat R p q -> clos_refl_sym_trans nat S p q.
Proof.
  intros R S p q M H. induction H; [apply M; assumption|apply rst_refl|apply rst_sym; assumption|eapply rst_trans; eassumption].
Qed.

Lemma union_find_spec : forall h f x y a d a' d', good h f ->
  nth_error h x = Some (EPair a d) -> nth_error h y = Some (EPair a' d') -> x <> y ->
  exists b f', union_find f x y = Done (b, f') /\ good h f' /\
    (forall p q, related f p q -> related f' p q) /\
    (if b then related f x y /\ (forall p q, related f' p q -> related f p q)
     else ~ related f x y /\ related f' x y /\ (forall p q, related f' p q -> joined f x y p q)).
Proof.
  intros h [m l] x y a d a' d' G Px Py N. unfold union_find. cbn [entry_of boxes].
  destruct (lookup m x) as [bx|] eqn:Ex; destruct (lookup m y) as [by_|] eqn:Ey.
  - destruct (G x bx Ex) as ((nx & rx & Lx) & _), (G y by_ Ey) as ((ny & ry & Ly) & _). cbn in Lx, Ly.
    destruct (find_spec _ _ _ _ Lx (S (length l))) as (l1 & -> & S1). { pose proof (leads_bound _ _ _ _ Lx). lia. }
    cbn [rbind]. destruct (proj2 S1 _ _ _ Ly) as (ny1 & Ly1).
    destruct (find_spec _ _ _ _ Ly1 (S (length l))) as (l2 & -> & S2).
    { pose proof (leads_bound _ _ _ _ Ly1). destruct S1 as [Q _]. lia. }
    cbn [rbind]. pose proof (same_roots_trans _ _ _ S1 S2) as S12.
    assert (G2 : good h (Forest m l2)) by (eapply same_roots_good; eassumption).
    destruct (proj2 S12 _ _ _ Lx) as (nx2 & Lx2), (proj2 S12 _ _ _ Ly) as (ny2 & Ly2).
    destruct (Nat.eqb_spec rx ry) as [->|Nr].
    { exists true, (Forest m l2). split; [reflexivity|]. split; [exact G2|].
      split; [intros p q; apply same_roots_related; exact S12|]. split.
      - right. exists bx, by_, nx, ny, ry. cbn. auto.
      - intros p q. eapply same_roots_related_inv; eassumption. }
    destruct (leads_is_root _ _ _ _ Lx2) as (kx & Kx), (leads_is_root _ _ _ _ Ly2) as (ky & Ky).
    unfold rank. rewrite Kx, Ky. cbn [rbind].
    assert (NR : ~ related (Forest m l) x y).
    { intros [Q|(bp & bq & n & k & r & A & B & C & D)]; [congruence|]. cbn in *. rewrite Ex in A. rewrite Ey in B.
      injection A as <-. injection B as <-.
      destruct (leads_det _ _ _ _ Lx _ _ C), (leads_det _ _ _ _ Ly _ _ D). congruence. }
    assert (Back : forall p q, joined (Forest m l2) x y p q -> joined (Forest m l) x y p q).
    { intros p q. apply clos_mono. intros u v [R|E]; apply rst_step; [left|right; exact E]. eapply same_roots_related_inv; eassumption. }
    destruct (ky <? kx)%Z.
    + set (l3 := store (store l2 rx (Rank (kx + ky))) ry (Up rx)).
      assert (M : forall b n r, leads l2 b n r -> exists n', leads l3 b n' (if Nat.eqb r ry then rx else r)).
      { apply (attach l2 l3 ry rx); eauto.
        - unfold l3. rewrite store_nth, Nat.eqb_refl, store_nth. destruct (Nat.eqb_spec rx ry); [congruence|]. rewrite Ky. reflexivity.
        - exists (kx + ky)%Z. unfold l3. rewrite !store_nth, Nat.eqb_refl. destruct (Nat.eqb_spec ry rx); [congruence|]. rewrite Kx. reflexivity.
        - intros c C1 C2. unfold l3. rewrite !store_nth. destruct (Nat.eqb_spec ry c); [congruence|]. destruct (Nat.eqb_spec rx c); [congruence|]. reflexivity. }
      destruct (merge_related h m l2 l3 y x by_ bx ny2 nx2 ry rx G2 Ey Ex Ly2 Lx2 M ltac:(congruence)) as (G3 & Mono & XY & J).
      exists false, (Forest m l3). split; [reflexivity|]. split; [exact G3|]. split.
      { intros p q R. apply Mono. eapply same_roots_related; eassumption. }
      split; [exact NR|]. split; [apply related_sym; exact XY|]. intros p q R. apply Back, joined_sym, J, R.
    + set (l3 := store (store l2 rx (Up ry)) ry (Rank (kx + ky))).
      assert (M : forall b n r, leads l2 b n r -> exists n', leads l3 b n' (if Nat.eqb r rx then ry else r)).
      { apply (attach l2 l3 rx ry); eauto.
        - unfold l3. rewrite !store_nth, Nat.eqb_refl. destruct (Nat.eqb_spec ry rx); [congruence|]. rewrite Kx. reflexivity.
        - exists (kx + ky)%Z. unfold l3. rewrite store_nth, Nat.eqb_refl, store_nth. destruct (Nat.eqb_spec rx ry); [congruence|]. rewrite Ky. reflexivity.
        - intros c C1 C2. unfold l3. rewrite !store_nth. destruct (Nat.eqb_spec ry c); [congruence|]. destruct (Nat.eqb_spec rx c); [congruence|]. reflexivity. }
      destruct (merge_related h m l2 l3 x y bx by_ nx2 ny2 rx ry G2 Ex Ey Lx2 Ly2 M Nr) as (G3 & Mono & XY & J).
      exists false, (Forest m l3). split; [reflexivity|]. split; [exact G3|]. split.
      { intros p q R. apply Mono. eapply same_roots_related; eassumption. }
      split; [exact NR|]. split; [exact XY|]. intros p q R. apply Back, J, R.
  - destruct (G x bx Ex) as ((nx & rx & Lx) & _). cbn in Lx.
    destruct (find_spec _ _ _ _ Lx (S (length l))) as (l1 & -> & S1). { pose proof (leads_bound _ _ _ _ Lx). lia. }
    cbn [rbind]. destruct (proj2 S1 _ _ _ Lx) as (nx1 & Lx1).
    assert (G1 : good h (Forest m l1)) by (eapply same_roots_good; eassumption).
    destruct (register_related h m l1 x y bx nx1 rx a' d' G1 Ex Ey Lx1 Py) as (G2 & Mono & XY & J).
    exists false, (Forest ((y, rx) :: m) l1). split; [reflexivity|]. split; [exact G2|]. split.
    { intros p q R. apply Mono. eapply same_roots_related; eassumption. }
    split; [|split; [exact XY|]].
    + intros [Q|(bp & bq & n & k & r & A & B & _)]; [congruence|]. cbn in B. congruence.
    + intros p q R. apply J in R. eapply clos_mono; [|exact R]. intros u v [Q|E]; apply rst_step; [left|right; exact E]. eapply same_roots_related_inv; eassumption.
  - destruct (G y by_ Ey) as ((ny & ry & Ly) & _). cbn in Ly.
    destruct (find_spec _ _ _ _ Ly (S (length l))) as (l1 & -> & S1). { pose proof (leads_bound _ _ _ _ Ly). lia. }
    cbn [rbind]. destruct (proj2 S1 _ _ _ Ly) as (ny1 & Ly1).
    assert (G1 : good h (Forest m l1)) by (eapply same_roots_good; eassumption).
    destruct (register_related h m l1 y x by_ ny1 ry a d G1 Ey Ex Ly1 Px) as (G2 & Mono & XY & J).
    exists false, (Forest ((x, ry) :: m) l1). split; [reflexivity|]. split; [exact G2|]. split.
    { intros p q R. apply Mono. eapply same_roots_related; eassumption. }
    split; [|split; [apply related_sym; exact XY|]].
    + intros [Q|(bp & bq & n & k & r & A & B & _)]; [congruence|]. cbn in A. congruence.
    + intros p q R. apply J, joined_sym in R. eapply clos_mono; [|exact R]. intros u v [Q|E]; apply rst_step; [left|right; exact E]. eapply same_roots_related_inv; eassumption.
  - destruct (register_both_related h m l x y a d a' d' G Ex Ey Px Py) as (G2 & Mono & XY & J).
    exists false, (Forest ((x, length l) :: (y, length l) :: m) (l ++ [Rank 1])). split; [reflexivity|]. split; [exact G2|]. split; [exact Mono|].
    split; [|split; [exact XY|exact J]].
    intros [Q|(bp & bq & n & k & r & A & B & _)]; [congruence|]. cbn in A. congruence.
Qed.

(** ** equal? *)
Definition eqrel (h : eheap) (f : forest) (x y : ev) : Prop :=
  atom h x y \/ exists p q, x = EPtr p /\ y = EPtr q /\ related f p q.
Definition fine (h : eheap) (f : forest) (p q : nat) : Prop :=
  p = q \/ exists a d a' d', nth_error h p = Some (EPair a d) /\ nth_error h q = Some (EPair a' d') /\ eqrel h f a a' /\ eqrel h f d d'.
Lemma related_cases : forall h f p q, good h f -> related f p q -> p = q \/ (exists a d, nth_error h p = Some (EPair a d)) /\ (exists a d, nth_error h q = Some (EPair a d)).
Proof.
  intros h f p q G [->|(bp & bq & n & m & r & A & B & _)]; [left; reflexivity|right]. split; [apply (G p bp A)|apply (G q bq B)].
Qed.
Lemma eqrel_sym : forall h f x y, eqrel h f x y -> eqrel h f y x.
Proof. intros h f x y [A|(p & q & -> & -> & R)]; [left; apply atom_sym; exact A|right]. exists q, p. repeat split; auto. apply related_sym. exact R. Qed.
Lemma eqrel_trans : forall h f x y z, good h f -> eqrel h f x y -> eqrel h f y z -> eqrel h f x z.
Proof.
  intros h f x y z G [A|(p & q & -> & -> & R)] [A'|(p' & q' & Q & -> & R')].
  - left. eapply atom_trans; eassumption.
  - subst y. destruct (related_cases _ _ _ _ G R') as [->|((a & d & E) & _)]; [left; exact A|].
    apply atom_sym in A. apply (atom_pair _ _ _ _ _ E) in A. subst x. right. eauto.
  - destruct (related_cases _ _ _ _ G R) as [->|(_ & a & d & E)]; [left; exact A'|].
    apply (atom_pair _ _ _ _ _ E) in A'. subst z. right. eauto.
  - injection Q as <-. right. exists p, q'. repeat split; auto. eapply related_trans; eassumption.
Qed.
Lemma eqrel_mono : forall h f f' x y, (forall p q, related f p q -> related f' p q) -> eqrel h f x y -> eqrel h f' x y.
Proof. intros h f f' x y M [A|(p & q & -> & -> & R)]; [left; exact A|right; eauto 6]. Qed.
Lemma fine_mono : forall h f f' p q, (forall p q, related f p q -> related f' p q) -> fine h f p q -> fine h f' p q.
Proof.
  intros h f f' p q M [->|(a & d & a' & d' & E & F & A & B)]; [left; reflexivity|right].
  exists a, d, a', d'. repeat split; eauto using eqrel_mono.
Qed.
Lemma fine_clos : forall h f p q, good h f -> clos_refl_sym_trans nat (fine h f) p q -> fine h f p q.
Proof.
  intros h f p q G H. induction H as [p q H|p|p q H IH|p q r H1 IH1 H2 IH2].
  - exact H.
  - left. reflexivity.
  - destruct IH as [->|(a & d & a' & d' & E & F & A & B)]; [left; reflexivity|right].
    exists a', d', a, d. repeat split; auto using eqrel_sym.
  - destruct IH1 as [->|(a & d & a' & d' & E & F & A & B)]; [exact IH2|].
    destruct IH2 as [<-|(a2 & d2 & a3 & d3 & E2 & F2 & A2 & B2)]; [right; exists a, d, a', d'; auto|].
    rewrite F in E2. injection E2 as <- <-. right. exists a, d, a3, d3. repeat split; eauto using eqrel_trans.
Qed.

Definition covers (h : eheap) (f : forest) (M : list (nat * nat)) : Prop :=
  forall p q, p < length h -> q < length h -> ~ related f p q -> In (p, q) M.
Lemma pair_eq_dec : forall a b : nat * nat, {a = b} + {a <> b}.
Proof. repeat decide equality. Qed.
Lemma remove_shorter : forall x (M : list (nat * nat)), In x M -> length (remove pair_eq_dec x M) < length M.
Proof. intros x M I. apply remove_length_lt. exact I. Qed.
Lemma covers_mono : forall h f f' M, (forall p q, related f p q -> related f' p q) -> covers h f M -> covers h f' M.
Proof. intros h f f' M Mo C p q Lp Lq N. apply C; auto. Qed.

Definition verdict (h : eheap) (f : forest) (x y : ev) (b : bool) (f' : forest) : Prop :=
  good h f' /\ (forall p q, related f p q -> related f' p q) /\
  (if b then eqrel h f' x y /\ (forall p q, related f' p q -> clos_refl_sym_trans nat (fun p q => related f p q \/ fine h f' p q) p q)
   else ~ same_tree h x y).

Lemma equal_in_spec : forall h lvl n need, uniform h -> levelled h lvl ->
  (forall u v fuel, lvl u < n -> need <= fuel -> exists b, equal_p fuel h u v = Done b /\ (b = true <-> same_tree h u v)) ->
  forall c M f x y fuel, length M <= c -> covers h f M -> good h f -> lvl x <= n -> c + 1 + need <= fuel ->
  exists b f', equal_in fuel h f x y = Done (b, f') /\ verdict h f x y b f'.
Proof.
  intros h lvl n need U (LvP & LvV) Dec. induction c as [|c IH]; intros M f x y fuel Lm Cov G Lx Lf;
    (destruct fuel as [|fuel]; [lia|]); cbn [equal_in];
    (destruct (eqv_spec (fun x y => '(b, _) <- equal_in fuel h no_forest x y; Done b) h x y U) as (e & Ee & He);
     [intros p xs u v -> Ep Iu; apply (Dec u v fuel); [pose proof (LvV p xs Ep u Iu); lia|lia]|]);
    rewrite Ee; cbn [rbind]; (destruct e;
      [exists true, f; split; [reflexivity|]; split; [exact G|]; split; [auto|]; split; [left; apply He; reflexivity|intros p q R; apply rst_step; left; exact R]|]);
    assert (NA : ~ atom h x y) by (intros A; apply He in A; discriminate);
    assert (NS : same_tree h x y -> exists p q a d a' d', x = EPtr p /\ y = EPtr q /\ nth_error h p = Some (EPair a d) /\ nth_error h q = Some (EPair a' d') /\
                  same_tree h a a' /\ same_tree h d d')
      by (intros S; apply same_unfold in S; destruct S as [L|[P|V]]; [exfalso; apply NA; left; exact L|exact P|exfalso; apply NA; right; exact V]);
    (assert (No : (forall p q a d a' d', x = EPtr p -> y = EPtr q -> nth_error h p = Some (EPair a d) -> nth_error h q = Some (EPair a' d') -> False) ->
                 exists b f', Done (false, f) = Done (b, f') /\ verdict h f x y b f')
      by (intros C; exists false, f; split; [reflexivity|]; split; [exact G|]; split; [auto|];
          intros S; destruct (NS S) as (p & q & a & d & a' & d' & A1 & A2 & A3 & A4 & _); eapply C; eassumption));
    (destruct x as [|zx|ix|p]; try (apply No; intros; congruence));
    (destruct y as [|zy|iy|q]; try (apply No; intros; congruence));
    (destruct (nth_error h p) as [[a d| | | | | | | ]|] eqn:Ep; try (apply No; intros; congruence));
    (destruct (nth_error h q) as [[a' d'| | | | | | | ]|] eqn:Eq; try (apply No; intros; congruence));
    assert (NP : p <> q) by (intros ->; apply NA; apply atom_refl);
    assert (Lp : p < length h) by (apply nth_error_Some; congruence);
    assert (Lq : q < length h) by (apply nth_error_Some; congruence);
    destruct (union_find_spec h f p q a d a' d' G Ep Eq NP) as (u & f1 & -> & G1 & M1 & Hu); cbn [rbind]; destruct u;
    try (destruct Hu as (R & Back); exists true, f1; split; [reflexivity|]; split; [exact G1|]; split; [exact M1|];
         split; [right; exists p, q; auto|intros p' q' R'; apply rst_step; left; apply Back; exact R']).
  - destruct Hu as (NR & _). exfalso. pose proof (Cov p q Lp Lq NR). destruct M; [contradiction|cbn in Lm; lia].
  - destruct Hu as (NR & R1 & J1).
    pose proof (Cov p q Lp Lq NR) as I. set (M' := remove pair_eq_dec (p, q) M).
    assert (Lm' : length M' <= c) by (pose proof (remove_shorter (p, q) M I); unfold M'; lia).
    assert (Cov1 : covers h f1 M').
    { intros p' q' Lp' Lq' NR'. unfold M'. apply in_in_remove.
      - intros Q. injection Q as -> ->. contradiction.
      - apply Cov; auto. }
    destruct (LvP p a d Ep) as [La Ld].
    destruct (IH M' f1 a a' fuel Lm' Cov1 G1 ltac:(lia) ltac:(lia)) as (b1 & f2 & -> & G2 & M2 & H2). cbn [rbind].
    destruct b1.
    2:{ exists false, f2. split; [reflexivity|]. split; [exact G2|]. split; [auto|]. intros S.
        destruct (NS S) as (p' & q' & a2 & d2 & a3 & d3 & A1 & A2 & A3 & A4 & A5 & _).
        injection A1 as <-. injection A2 as <-. rewrite Ep in A3. rewrite Eq in A4. injection A3 as <- <-. injection A4 as <- <-. contradiction. }
    destruct H2 as (Ra & J2).
    destruct (IH M' f2 d d' fuel Lm' (covers_mono _ _ _ _ M2 Cov1) G2 ltac:(lia) ltac:(lia)) as (b2 & f3 & -> & G3 & M3 & H3).
    exists b2, f3. split; [reflexivity|]. split; [exact G3|]. split; [auto|]. destruct b2.
    + destruct H3 as (Rd & J3). split; [right; exists p, q; auto|].
      assert (Fpq : fine h f3 p q).
      { right. exists a, d, a', d'. repeat split; auto. eapply eqrel_mono; [exact M3|exact Ra]. }
      intros p' q' R3. apply J3 in R3. eapply clos_mono; [|exact R3]. clear p' q' R3. intros u v [R2|F3]; [|apply rst_step; right; exact F3].
      apply J2 in R2. eapply clos_mono; [|exact R2]. clear u v R2. intros u v [R|F2]; [|apply rst_step; right; eapply fine_mono; eassumption].
      apply J1 in R. eapply clos_mono; [|exact R]. clear u v R. intros u v [R|[-> ->]]; apply rst_step; [left; exact R|right; exact Fpq].
    + intros S. destruct (NS S) as (p' & q' & a2 & d2 & a3 & d3 & A1 & A2 & A3 & A4 & _ & A5).
      injection A1 as <-. injection A2 as <-. rewrite Ep in A3. rewrite Eq in A4. injection A3 as <- <-. injection A4 as <- <-. contradiction.
Qed.
Lemma good_empty : forall h, good h no_forest.
Proof. intros h p b E. discriminate. Qed.
Lemma related_empty : forall p q, related no_forest p q -> p = q.
Proof. intros p q [->|(bp & bq & n & m & r & A & _)]; [reflexivity|discriminate]. Qed.
Lemma verdict_sound : forall h x y f', verdict h no_forest x y true f' -> same_tree h x y.
Proof.
  intros h x y f' (G & _ & R & J).
  assert (F : forall p q, related f' p q -> fine h f' p q).
  { intros p q H. apply fine_clos; [exact G|]. eapply clos_mono; [|apply J; exact H].
    intros u v [E|E]; [apply related_empty in E; subst; apply rst_refl|apply rst_step; exact E]. }
  apply (bisim_same h (fun x y => eqrel h f' x y \/ same_tree h x y)); [|left; exact R].
  intros u v [[A|(p & q & -> & -> & Q)]|S].
  - destruct A as [L|(p & q & xs & ys & -> & -> & E & E' & A)]; [left; exact L|].
    right. right. exists p, q, xs, ys. repeat split; auto. clear -A. induction A; constructor; auto.
  - destruct (F p q Q) as [->|(a & d & a' & d' & E & E' & A & D)]; [left; apply leaf_refl|].
    right. left. exists p, q, a, d, a', d'. auto 10.
  - eapply layer_mono; [|apply same_unfold; exact S]. cbn. auto.
Qed.
Lemma equal_spec : forall h lvl, uniform h -> levelled h lvl -> forall n x y fuel, lvl x < n ->
  n * (length h * length h + 1) <= fuel ->
  exists b, equal_p fuel h x y = Done b /\ (b = true <-> same_tree h x y).
Proof.
  intros h lvl U Lv. induction n as [|n IH]; intros x y fuel Lx Lf; [lia|].
  destruct (equal_in_spec h lvl n (n * (length h * length h + 1)) U Lv) with
    (c := length h * length h) (M := list_prod (seq 0 (length h)) (seq 0 (length h))) (f := no_forest) (x := x) (y := y) (fuel := fuel)
    as (b & f' & E & V).
  - intros u v fl Lu Lfl. apply (IH u v fl Lu Lfl).
  - rewrite prod_length, seq_length. lia.
  - intros p q Lp Lq _. apply in_prod; apply in_seq; lia.
  - apply good_empty.
  - lia.
  - cbn in Lf. lia.
  - unfold equal_p. rewrite E. cbn [rbind]. exists b. split; [reflexivity|].
    destruct b.
    + split; [intros _; eapply verdict_sound; exact V|reflexivity].
    + split; [discriminate|]. intros S. destruct V as (_ & _ & N). contradiction.
Qed.
(** no vectors: every heap of pairs is levelled *)
Lemma no_vectors_levelled : forall h, (forall p xs, nth_error h p <> Some (EVec xs)) -> levelled h (fun _ => 0).
Proof. intros h N. split; [intros; lia|]. intros p xs E. exfalso. exact (N p xs E). Qed.

(** ** eqv? *)
Lemma eqv_p_spec : forall h lvl, uniform h -> levelled h lvl -> forall x y fuel, (lvl x + 1) * (length h * length h + 1) <= fuel ->
  exists b, eqv_p fuel h x y = Done b /\ (b = true <-> atom h x y).
Proof.
  intros h lvl U Lv x y fuel Lf. apply eqv_spec; [exact U|].
  intros p xs u v -> E I. apply (equal_spec h lvl U Lv (lvl (EPtr p) + 1)); [|exact Lf].
  destruct Lv as (_ & LV). pose proof (LV p xs E u I). lia.
Qed.
Lemma equal_of_eqv : forall fuel h x y, eqv_p fuel h x y = Done true -> equal_p (S fuel) h x y = Done true.
Proof.
  intros fuel h x y H. unfold equal_p. cbn [equal_in]. unfold eqv_p, equal_p in H.
  rewrite H. reflexivity.
Qed.
Lemma eqv_of_eq : forall fuel h x y, eq_p x y = true -> eqv_p fuel h x y = Done true.
Proof. intros fuel h x y H. unfold eqv_p, eqv_. unfold eq_p in H. rewrite H. reflexivity. Qed.

(** a vector that contains itself *)
Definition selfish (p : nat) (h : eheap) := nth_error h p = Some (EVec [EPtr p]).
Lemma cyclic_vectors_loop : forall h p q, selfish p h -> selfish q h -> p <> q -> forall fuel, equal_p fuel h (EPtr p) (EPtr q) = Loop.
Proof.
  intros h p q Hp Hq N. unfold selfish in *.
  assert (L : forall fuel f, equal_in fuel h f (EPtr p) (EPtr q) = Loop).
  { induction fuel as [|fuel IH]; intros f; [reflexivity|]. cbn [equal_in]. unfold eqv_, object_eqv. cbn [eqw at_addr].
    destruct (Nat.eqb_spec p q); [contradiction|]. rewrite Hp, Hq. cbn [length Nat.eqb all_equal rbind]. rewrite IH. reflexivity. }
  intros fuel. unfold equal_p. rewrite L. reflexivity.
Qed.
