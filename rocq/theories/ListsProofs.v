(** The list procedures against list functions on element sequences. *)
From Coq Require Import ZArith List Bool Lia PeanoNat.
From Verif Require Import Lists ListPredicates.
Import ListNotations.

(** ** Specification *)
(** [seg h v ps xs w]: following cdr from [v] visits the pairs [ps], whose cars are
    [xs], and arrives at [w].  A proper list is the case [w = Nil]. *)
Inductive seg (h : heap) : val -> list nat -> list val -> val -> Prop :=
| seg_nil w : seg h w [] [] w
| seg_cons p a d ps xs w : nth_error h p = Some (Obj true a d) -> seg h d ps xs w ->
    seg h (Ptr p) (p :: ps) (a :: xs) w.
(** [w] is an existing object other than a pair *)
Definition ends (h : heap) (w : val) : Prop :=
  match w with Ptr p => exists o, nth_error h p = Some o /\ pairp o = false | _ => True end.
(** nothing that existed has changed *)
Definition ext (h h' : heap) : Prop := exists new, h' = h ++ new.
(** pairs allocated since [h], each used once *)
Definition fresh (h : heap) (ps : list nat) : Prop := NoDup ps /\ Forall (fun p => length h <= p) ps.
(** nothing that existed has changed, except the cdrs of [ps] *)
Definition touched (h h' : heap) (ps : list nat) : Prop :=
  forall q o, nth_error h q = Some o -> exists o', nth_error h' q = Some o' /\
    pairp o' = pairp o /\ first o' = first o /\ (~ In q ps -> second o' = second o).

(** ** Facts about segments *)
Lemma ext_refl : forall h, ext h h.
Proof. intros h. exists []. symmetry. apply app_nil_r. Qed.
Lemma ext_trans : forall a b c, ext a b -> ext b c -> ext a c.
Proof. intros a b c (x & ->) (y & ->). exists (x ++ y). apply app_assoc_reverse. Qed.
Lemma ext_length : forall h h', ext h h' -> length h <= length h'.
Proof. intros h h' (x & ->). rewrite app_length. lia. Qed.
Lemma ext_nth : forall h h' p o, ext h h' -> nth_error h p = Some o -> nth_error h' p = Some o.
Proof. intros h h' p o (x & ->) E. rewrite nth_error_app1; [exact E|]. apply nth_error_Some. congruence. Qed.
Lemma ext_cons : forall h a d, ext h (snd (cons_ h a d)).
Proof. intros. exists [Obj true a d]. reflexivity. Qed.
Lemma seg_ext : forall h h' v ps xs w, ext h h' -> seg h v ps xs w -> seg h' v ps xs w.
Proof. intros h h' v ps xs w E H. induction H; econstructor; eauto using ext_nth. Qed.
Lemma ends_ext : forall h h' w, ext h h' -> ends h w -> ends h' w.
Proof. intros h h' [|b|p] E H; try exact I. destruct H as (o & Ho & Hp). exists o. eauto using ext_nth. Qed.
Lemma ends_not_pair : forall h w, ends h w -> is_pair h w = false.
Proof. intros h [|b|p] H; try reflexivity. destruct H as (o & Ho & Hp). cbn. rewrite Ho. exact Hp. Qed.
Lemma seg_lengths : forall h v ps xs w, seg h v ps xs w -> length ps = length xs.
Proof. intros h v ps xs w H. induction H; cbn; congruence. Qed.
Lemma seg_bound : forall h v ps xs w, seg h v ps xs w -> Forall (fun p => p < length h) ps.
Proof. intros h v ps xs w H. induction H; constructor; auto. apply nth_error_Some. congruence. Qed.
Lemma seg_app : forall h v ps xs u, seg h v ps xs u -> forall qs ys w, seg h u qs ys w ->
  seg h v (ps ++ qs) (xs ++ ys) w.
Proof. intros h v ps xs u H. induction H; intros qs ys w' H'; [exact H'|]. cbn. econstructor; eauto. Qed.
Lemma seg_chain : forall h v ps xs w, seg h v ps xs w -> chain h (length ps) v = Some w.
Proof. intros h v ps xs w H. induction H as [|p a d ps xs w E H IH]; cbn; [reflexivity|]. rewrite E. exact IH. Qed.
Lemma seg_split : forall h v l1 p l2 xs w, seg h v (l1 ++ p :: l2) xs w ->
  exists xs', seg h (Ptr p) (p :: l2) xs' w.
Proof.
  intros h v l1. revert v. induction l1 as [|q l1 IH]; intros v p l2 xs w H; cbn in H.
  - inversion H; subst. exists (a :: xs0). exact H.
  - inversion H; subst. eauto.
Qed.
Lemma seg_nodup : forall h v ps xs w, seg h v ps xs w -> ends h w -> NoDup ps.
Proof.
  intros h v ps xs w H N. induction H as [|p a d ps xs w E H IH]; constructor; auto.
  intros I. apply in_split in I. destruct I as (l1 & l2 & ->).
  destruct (seg_split _ _ _ _ _ _ _ H) as (xs' & H').
  pose proof (seg_chain _ _ _ _ _ H') as C1.
  pose proof (seg_chain _ _ _ _ _ (seg_cons _ _ _ _ _ _ _ E H)) as C2.
  pose proof (ends_not_pair _ _ N) as P.
  pose proof (chain_end_unique _ _ _ _ _ _ C1 P C2 P) as L. cbn in L. rewrite app_length in L. cbn in L. lia.
Qed.

(** one cell in front *)
Lemma cons_seg : forall h h1 r ps xs w a, ext h h1 -> seg h1 r ps xs w -> fresh h ps ->
  ext h (snd (cons_ h1 a r)) /\
  seg (snd (cons_ h1 a r)) (fst (cons_ h1 a r)) (length h1 :: ps) (a :: xs) w /\ fresh h (length h1 :: ps).
Proof.
  intros h h1 r ps xs w a E H (ND & F). split; [eapply ext_trans; [exact E|apply ext_cons]|]. split.
  - cbn. econstructor.
    + rewrite nth_error_app2 by lia. rewrite Nat.sub_diag. reflexivity.
    + eapply seg_ext; [|exact H]. apply (ext_cons h1 a r).
  - split; constructor; auto.
    + intros I. pose proof (seg_bound _ _ _ _ _ H) as B. rewrite Forall_forall in B. apply B in I. lia.
    + apply ext_length. exact E.
Qed.
Lemma fresh_nil : forall h, fresh h [].
Proof. intros; split; constructor. Qed.
Global Hint Resolve fresh_nil ext_refl : core.

(** ** Allocating procedures *)
Definition copies (h : heap) (m : res (val * heap)) (xs : list val) (w : val) : Prop :=
  exists r h' ps, m = Done (r, h') /\ ext h h' /\ seg h' r ps xs w /\ fresh h ps.

Lemma copies_cons : forall h m xs w a, copies h m xs w ->
  copies h ('(r, h') <- m; Done (cons_ h' a r)) (a :: xs) w.
Proof.
  intros h m xs w a (r & h' & ps & -> & E & S & F). cbn [rbind].
  destruct (cons_seg h h' r ps xs w a E S F) as (E' & S' & F').
  exists (fst (cons_ h' a r)), (snd (cons_ h' a r)), (length h' :: ps). auto.
Qed.
Lemma seg_cons_car : forall h p a d, nth_error h p = Some (Obj true a d) ->
  is_pair h (Ptr p) = true /\ car h (Ptr p) = Done a /\ cdr h (Ptr p) = Done d.
Proof. intros h p a d E. cbn. rewrite E. auto. Qed.

Lemma make_list_spec : forall n h x, copies h (Done (make_list n h x)) (repeat x n) Nil.
Proof.
  induction n as [|n IH]; intros h x; cbn [make_list repeat].
  - exists Nil, h, []. repeat split; auto; constructor.
  - pose proof (copies_cons h _ _ _ x (IH h x)) as H. cbn [rbind] in H.
    destruct (make_list n h x) as [r h']. exact H.
Qed.
Fixpoint iterate (plus : val -> val -> val) (n : nat) (start step : val) : list val :=
  match n with O => [] | S n => start :: iterate plus n (plus start step) step end.
Lemma iota_spec : forall n h plus x s, copies h (Done (iota n h plus x s)) (iterate plus n x s) Nil.
Proof.
  induction n as [|n IH]; intros h plus x s; cbn [iota iterate].
  - exists Nil, h, []. repeat split; auto; constructor.
  - pose proof (copies_cons h _ _ _ x (IH h plus (plus x s) s)) as H. cbn [rbind] in H.
    destruct (iota n h plus (plus x s) s) as [r h']. exact H.
Qed.
Lemma list_copy_spec : forall h x ps xs w, seg h x ps xs w -> ends h w -> forall fuel, length xs < fuel ->
  copies h (list_copy fuel h x) xs w.
Proof.
  intros h x ps xs w H N. induction H as [w|p a d ps xs w E H IH]; intros fuel L;
    (destruct fuel as [|fuel]; [lia|]); cbn [list_copy].
  - rewrite (ends_not_pair _ _ N). exists w, h, []. repeat split; auto; constructor.
  - destruct (seg_cons_car _ _ _ _ E) as (-> & -> & ->). cbn [rbind].
    apply copies_cons, IH; [exact N|cbn in L; lia].
Qed.
Lemma take_spec : forall h x ps xs w, seg h x ps xs w -> forall k, k <= length xs ->
  copies h (take h x k) (firstn k xs) Nil.
Proof.
  intros h x ps xs w H. induction H as [w|p a d ps xs w E H IH]; intros [|k] L; cbn in L; try lia; cbn [take firstn].
  1,2: exists Nil, h, []; repeat split; auto; constructor.
  destruct (seg_cons_car _ _ _ _ E) as (_ & -> & ->). cbn [rbind]. apply copies_cons, IH. lia.
Qed.
Lemma drop_spec : forall h x ps xs w, seg h x ps xs w -> forall k, k <= length xs ->
  exists v, drop h x k = Done v /\ seg h v (skipn k ps) (skipn k xs) w.
Proof.
  intros h x ps xs w H. induction H as [w|p a d ps xs w E H IH]; intros [|k] L; cbn in L; try lia; cbn [drop skipn].
  - exists w. split; [reflexivity|constructor].
  - eexists. split; [reflexivity|econstructor; eassumption].
  - destruct (seg_cons_car _ _ _ _ E) as (_ & _ & ->). cbn [rbind]. apply IH. lia.
Qed.
Lemma drop_past_end : forall h x ps xs w, seg h x ps xs w -> (forall p, w <> Ptr p) -> forall k, length xs < k ->
  drop h x k = Ub.
Proof.
  intros h x ps xs w H N. induction H as [w|p a d ps xs w E H IH]; intros [|k] L; cbn in L; try lia; cbn [drop].
  - destruct w; cbn; try reflexivity. exfalso. eapply N. reflexivity.
  - destruct (seg_cons_car _ _ _ _ E) as (_ & _ & ->). cbn [rbind]. apply IH; [exact N|lia].
Qed.
Lemma take_past_end : forall h x ps xs w, seg h x ps xs w -> (forall p, w <> Ptr p) -> forall k, length xs < k ->
  take h x k = Ub.
Proof.
  intros h x ps xs w H N. induction H as [w|p a d ps xs w E H IH]; intros [|k] L; cbn in L; try lia; cbn [take].
  - destruct w; cbn; try reflexivity. exfalso. eapply N. reflexivity.
  - destruct (seg_cons_car _ _ _ _ E) as (_ & -> & ->). cbn [rbind]. rewrite IH; [reflexivity|exact N|lia].
Qed.
Lemma list_ref_spec : forall h x ps xs w k a, seg h x ps xs w -> nth_error xs k = Some a -> list_ref h x k = Done a.
Proof.
  intros h x ps xs w k a H E. unfold list_ref.
  assert (L : k < length xs) by (apply nth_error_Some; congruence).
  destruct (drop_spec _ _ _ _ _ H k ltac:(lia)) as (v & -> & S). cbn [rbind].
  assert (Sk : exists r, skipn k xs = a :: r).
  { clear -E. revert k E. induction xs as [|y xs IH]; intros [|k] E; cbn in *; try discriminate; [|eauto].
    injection E as ->. eauto. }
  destruct Sk as (r & Sk). rewrite Sk in S. inversion S; subst.
  destruct (seg_cons_car _ _ _ _ H4) as (_ & -> & _). reflexivity.
Qed.
Lemma length_loop_spec : forall h x ps xs w, seg h x ps xs w -> (forall p, w <> Ptr p) -> forall fuel, length xs < fuel ->
  length_loop fuel h x = Done (Z.of_nat (length xs)).
Proof.
  intros h x ps xs w H N. induction H as [w|p a d ps xs w E H IH]; intros fuel L;
    (destruct fuel as [|fuel]; [lia|]); cbn [length_loop].
  - destruct w; try reflexivity. exfalso. eapply N. reflexivity.
  - destruct (seg_cons_car _ _ _ _ E) as (_ & _ & ->). cbn [rbind]. rewrite IH; [|exact N|cbn in L; lia].
    cbn [rbind length]. f_equal. lia.
Qed.
Lemma length_spec : forall h x ps xs fuel, seg h x ps xs Nil -> length xs < fuel -> (Z.of_nat (length xs) < 2^31)%Z ->
  length_ fuel h x = Done (Z.of_nat (length xs)).
Proof.
  intros h x ps xs fuel H L B. unfold length_. rewrite (length_loop_spec _ _ _ _ _ H) by (congruence || exact L).
  cbn [rbind]. rewrite Z.mod_small by lia. f_equal. lia.
Qed.
Lemma length_circular : forall h x, circular h x -> forall fuel, length_ fuel h x = Loop.
Proof.
  intros h x C fuel. unfold length_. enough (length_loop fuel h x = Loop) as -> by reflexivity.
  revert x C. induction fuel as [|fuel IH]; intros x C; [reflexivity|]. cbn [length_loop].
  destruct (C 0) as (w & E & p & o & -> & Eo & Po). cbn in E. injection E as ->.
  assert (D : cdr h (Ptr p) = Done (second o)) by (cbn; rewrite Eo; reflexivity).
  rewrite D. cbn [rbind]. rewrite IH; [reflexivity|].
  intros n. destruct (C (S n)) as (w & E & P). exists w. split; [|exact P]. cbn in E. rewrite Eo, Po in E. exact E.
Qed.

Lemma skipn_cons : forall {A} k (l : list A) x r, skipn k l = x :: r -> skipn (S k) l = r.
Proof.
  intros A k. induction k as [|k IH]; intros [|y l] x r E; cbn in *; try discriminate; [congruence|].
  apply (IH l x r E).
Qed.
(** two walkers [k] apart *)
Lemma take_right_loop_spec : forall h y qs ys w, seg h y qs ys w -> ends h w ->
  forall fuel x ps xs, seg h x ps xs w -> length ys <= length xs -> length ys < fuel ->
  exists v, take_right_loop fuel h x y = Done v /\ seg h v (skipn (length ys) ps) (skipn (length ys) xs) w.
Proof.
  intros h y qs ys w H N. induction H as [w|p a d qs ys w E H IH]; intros fuel x ps xs S L F;
    (destruct fuel as [|fuel]; [lia|]); cbn [take_right_loop length skipn].
  - rewrite (ends_not_pair _ _ N). eauto.
  - destruct (seg_cons_car _ _ _ _ E) as (-> & _ & Hd). cbn in L, F.
    inversion S; subst; cbn in L; [lia|].
    destruct (seg_cons_car _ _ _ _ H0) as (_ & _ & ->). cbn [rbind]. rewrite Hd. cbn [rbind].
    apply IH; [exact N|assumption|lia|lia].
Qed.
Lemma take_right_spec : forall h x ps xs w k fuel, seg h x ps xs w -> ends h w -> k <= length xs -> length xs < fuel ->
  exists v, take_right fuel h x k = Done v /\ seg h v (skipn (length xs - k) ps) (skipn (length xs - k) xs) w.
Proof.
  intros h x ps xs w k fuel H N L F. unfold take_right.
  destruct (drop_spec _ _ _ _ _ H k L) as (y & -> & Sy). cbn [rbind].
  destruct (take_right_loop_spec _ _ _ _ _ Sy N fuel x ps xs H) as (v & Hv & Sv).
  1,2: rewrite skipn_length; lia.
  exists v. rewrite skipn_length in Sv. auto.
Qed.
Lemma drop_right_loop_spec : forall h y qs ys w, seg h y qs ys w -> ends h w ->
  forall fuel x ps xs, seg h x ps xs w -> length ys <= length xs -> length ys < fuel ->
  copies h (drop_right_loop fuel h x y) (firstn (length ys) xs) Nil.
Proof.
  intros h y qs ys w H N. induction H as [w|p a d qs ys w E H IH]; intros fuel x ps xs S L F;
    (destruct fuel as [|fuel]; [lia|]); cbn [drop_right_loop length firstn].
  - rewrite (ends_not_pair _ _ N). exists Nil, h, []. repeat split; auto; constructor.
  - destruct (seg_cons_car _ _ _ _ E) as (-> & _ & Hd). cbn in L, F.
    inversion S; subst; cbn in L; [lia|].
    destruct (seg_cons_car _ _ _ _ H0) as (_ & -> & ->). cbn [rbind]. rewrite Hd. cbn [rbind firstn].
    apply copies_cons. eapply IH; [exact N|eassumption|lia|lia].
Qed.
Lemma drop_right_spec : forall h x ps xs w k fuel, seg h x ps xs w -> ends h w -> k <= length xs -> length xs < fuel ->
  copies h (drop_right fuel h x k) (firstn (length xs - k) xs) Nil.
Proof.
  intros h x ps xs w k fuel H N L F. unfold drop_right.
  destruct (drop_spec _ _ _ _ _ H k L) as (y & -> & Sy). cbn [rbind].
  rewrite <- (skipn_length k xs). eapply drop_right_loop_spec; [exact Sy|exact N|exact H| |]; rewrite skipn_length; lia.
Qed.
Lemma append_spec : forall h x ps xs w y, seg h x ps xs w -> ends h w -> forall fuel, length xs < fuel ->
  copies h (append fuel h x y) xs y.
Proof.
  intros h x ps xs w y H N. induction H as [w|p a d ps xs w E H IH]; intros fuel L;
    (destruct fuel as [|fuel]; [lia|]); cbn [append].
  - rewrite (ends_not_pair _ _ N). exists y, h, []. repeat split; auto; constructor.
  - destruct (seg_cons_car _ _ _ _ E) as (-> & -> & ->). cbn [rbind].
    apply copies_cons, IH; [exact N|cbn in L; lia].
Qed.
Lemma append_all_loop : forall vs xss, Forall2 (fun v xs => True) vs xss ->
  forall h h1 acc aps axs y fuel, ext h h1 -> seg h1 acc aps axs Nil ->
  Forall2 (fun v xs => exists ps, seg h v ps xs Nil) vs xss ->
  length axs + length (concat xss) < fuel ->
  exists r h' ps, append_all fuel h1 acc (vs ++ [y]) = Done (r, h') /\ ext h h' /\
    seg h' r ps (axs ++ concat xss) y /\ fresh h ps.
Proof.
  intros vs xss _. revert xss. induction vs as [|v vs IH]; intros xss h h1 acc aps axs y fuel E S F L;
    inversion F; subst; cbn [app append_all concat] in *.
  - destruct (append_spec h1 acc aps axs Nil y S I fuel ltac:(cbn in L; lia)) as (r & h' & ps & -> & E' & S' & (ND & Fr)).
    cbn [rbind]. exists r, h', ps. rewrite app_nil_r. repeat split; auto.
    + eapply ext_trans; eassumption.
    + eapply Forall_impl; [|exact Fr]. cbn. intros p Hp. pose proof (ext_length _ _ E). lia.
  - destruct H1 as (ps & Sv). rewrite app_length in L.
    destruct (append_spec h1 acc aps axs Nil v S I fuel ltac:(lia)) as (r & h' & qs & -> & E' & S' & _).
    cbn [rbind]. assert (E2 : ext h h') by (eapply ext_trans; eassumption).
    pose proof (seg_app _ _ _ _ _ S' _ _ _ (seg_ext _ _ _ _ _ _ E2 Sv)) as S2.
    destruct (IH l' h h' r _ _ y fuel E2 S2 H3) as (r2 & h2 & ps2 & R & E3 & S3 & F3).
    { rewrite app_length. lia. }
    exists r2, h2, ps2. rewrite <- app_assoc in S3. auto.
Qed.
Lemma append_all_spec : forall vs xss h y fuel, Forall2 (fun v xs => exists ps, seg h v ps xs Nil) vs xss ->
  length (concat xss) < fuel -> copies h (append_all fuel h Nil (vs ++ [y])) (concat xss) y.
Proof.
  intros vs xss h y fuel F L. apply (append_all_loop vs xss) with (aps := []) (axs := []); auto.
  - clear -F. induction F; constructor; auto.
  - constructor.
Qed.
Lemma reverse_loop_spec : forall h0 x ps xs w h, seg h x ps xs w -> ends h w -> ext h0 h ->
  forall fuel c qs acc y, seg h c qs acc y -> fresh h0 qs -> length xs < fuel ->
  exists r h' ps', reverse_loop fuel h x c = Done (r, h') /\ ext h h' /\ seg h' r ps' (rev xs ++ acc) y /\ fresh h0 ps'.
Proof.
  intros h0 x ps. revert x. induction ps as [|p ps IH]; intros x xs w h H N E0 fuel c qs acc y S F L;
    (destruct fuel as [|fuel]; [lia|]); inversion H; subst; cbn [reverse_loop].
  - rewrite (ends_not_pair _ _ N). exists c, h, qs. repeat match goal with |- _ /\ _ => split end; auto.
  - destruct (seg_cons_car _ _ _ _ H3) as (-> & -> & _). cbn [rbind].
    destruct (cons_seg h0 h c qs acc y a E0 S F) as (E1 & S1 & F1).
    destruct (cons_ h a c) as [v h1] eqn:Ec. cbn [fst snd] in *.
    assert (E2 : ext h h1) by (pose proof (ext_cons h a c) as X; rewrite Ec in X; exact X).
    destruct (seg_cons_car h1 p a d) as (_ & _ & ->); [eauto using ext_nth|]. cbn [rbind].
    destruct (IH d xs0 w h1) with (fuel := fuel) (c := v) (qs := length h :: qs) (acc := a :: acc) (y := y)
      as (r & h' & ps' & R & E3 & S3 & F3); eauto using seg_ext, ends_ext. { cbn in L; lia. }
    exists r, h', ps'. repeat match goal with |- _ /\ _ => split end; auto.
    + eapply ext_trans; eassumption.
    + cbn [rev]. rewrite <- app_assoc. exact S3.
Qed.
Lemma reverse_spec : forall h x ps xs w fuel, seg h x ps xs w -> ends h w -> length xs < fuel ->
  copies h (reverse fuel h x) (rev xs) Nil.
Proof.
  intros h x ps xs w fuel H N L. rewrite <- (app_nil_r (rev xs)). unfold reverse.
  destruct (reverse_loop_spec h x ps xs w h H N (ext_refl h) fuel Nil [] [] Nil) as (r & h' & ps' & R); auto.
  - constructor.
  - exists r, h', ps'. exact R.
Qed.
Lemma append_reverse_gen : forall h0 x ps xs h, seg h x ps xs Nil -> ext h0 h ->
  forall fuel c qs acc y, seg h c qs acc y -> fresh h0 qs -> length xs < fuel ->
  exists r h' ps', append_reverse fuel h x c = Done (r, h') /\ ext h h' /\ seg h' r ps' (rev xs ++ acc) y /\ fresh h0 ps'.
Proof.
  intros h0 x ps. revert x. induction ps as [|p ps IH]; intros x xs h H E0 fuel c qs acc y S F L;
    (destruct fuel as [|fuel]; [lia|]); inversion H; subst; cbn [append_reverse is_null].
  - exists c, h, qs. repeat match goal with |- _ /\ _ => split end; auto.
  - destruct (seg_cons_car _ _ _ _ H3) as (_ & -> & _). cbn [rbind].
    destruct (cons_seg h0 h c qs acc y a E0 S F) as (E1 & S1 & F1).
    destruct (cons_ h a c) as [v h1] eqn:Ec. cbn [fst snd] in *.
    assert (E2 : ext h h1) by (pose proof (ext_cons h a c) as X; rewrite Ec in X; exact X).
    destruct (seg_cons_car h1 p a d) as (_ & _ & ->); [eauto using ext_nth|]. cbn [rbind].
    destruct (IH d xs0 h1) with (fuel := fuel) (c := v) (qs := length h :: qs) (acc := a :: acc) (y := y)
      as (r & h' & ps' & R & E3 & S3 & F3); eauto using seg_ext. { cbn in L; lia. }
    exists r, h', ps'. repeat match goal with |- _ /\ _ => split end; auto.
    + eapply ext_trans; eassumption.
    + cbn [rev]. rewrite <- app_assoc. exact S3.
Qed.
Lemma append_reverse_spec : forall h x ps xs y fuel, seg h x ps xs Nil -> length xs < fuel ->
  copies h (append_reverse fuel h x y) (rev xs) y.
Proof.
  intros h x ps xs y fuel H L. rewrite <- (app_nil_r (rev xs)).
  destruct (append_reverse_gen h x ps xs h H (ext_refl h) fuel y [] [] y) as (r & h' & ps' & R); auto.
  - constructor.
  - exists r, h', ps'. exact R.
Qed.
Lemma last_pair_spec : forall h x ps xs w, seg h x ps xs w -> ends h w -> forall qs q ys a, ps = qs ++ [q] -> xs = ys ++ [a] ->
  forall fuel, length xs <= fuel -> last_pair fuel h x = Done (Ptr q) /\ nth_error h q = Some (Obj true a w).
Proof.
  intros h x ps xs w H N. induction H as [w|p a0 d ps xs w E H IH]; intros qs q ys a Ep Ex fuel L.
  { destruct qs; discriminate. }
  destruct fuel as [|fuel]; [cbn in L; lia|]. cbn [last_pair].
  destruct (seg_cons_car _ _ _ _ E) as (_ & _ & ->). cbn [rbind].
  destruct qs as [|q0 qs]; cbn in Ep.
  - injection Ep as -> ->. inversion H; subst. rewrite (ends_not_pair _ _ N).
    destruct ys as [|? [|? ?]]; cbn in Ex; try discriminate. injection Ex as ->. auto.
  - injection Ep as -> ->. pose proof (seg_lengths _ _ _ _ _ H) as Le. rewrite app_length in Le. cbn in Le.
    destruct ys as [|y0 ys]; cbn in Ex. { injection Ex as _ ->. cbn in Le. lia. }
    injection Ex as -> ->.
    assert (P : is_pair h d = true).
    { inversion H; subst; [destruct qs; discriminate|]. eapply seg_cons_car. eassumption. }
    rewrite P. apply (IH N qs q ys a); auto. cbn in L. lia.
Qed.
Lemma snoc_cases : forall {A} (l : list A), l = [] \/ exists l' a, l = l' ++ [a].
Proof. intros A l. destruct l as [|x l]; [left; reflexivity|right]. destruct (exists_last (l := x :: l)) as (l' & a & E); [discriminate|eauto]. Qed.
Lemma last_spec : forall h x ps xs a w fuel, seg h x ps (xs ++ [a]) w -> ends h w -> length xs < fuel ->
  last_ fuel h x = Done a.
Proof.
  intros h x ps xs a w fuel H N L. unfold last_. pose proof (seg_lengths _ _ _ _ _ H) as Le. rewrite app_length in Le. cbn in Le.
  destruct (snoc_cases ps) as [->|(qs & q & ->)]; [cbn in Le; lia|].
  destruct (last_pair_spec _ _ _ _ _ H N qs q xs a eq_refl eq_refl fuel) as (-> & E); [rewrite app_length; cbn; lia|].
  cbn [rbind]. apply (seg_cons_car _ _ _ _ E).
Qed.
Lemma map_spec : forall f y h x ps xs w, seg h x ps xs w -> ends h w -> forall fuel, length xs < fuel ->
  copies h (map_ fuel h f x y) (map f xs) y.
Proof.
  intros f y h x ps xs w H N. induction H as [w|p a d ps xs w E H IH]; intros fuel L;
    (destruct fuel as [|fuel]; [lia|]); cbn [map_ map].
  - rewrite (ends_not_pair _ _ N). exists y, h, []. repeat split; auto; constructor.
  - destruct (seg_cons_car _ _ _ _ E) as (-> & -> & ->). cbn [rbind].
    apply copies_cons, IH; [exact N|cbn in L; lia].
Qed.
Lemma filter_spec : forall t h x ps xs w, seg h x ps xs w -> ends h w -> forall fuel, length xs < fuel ->
  copies h (filter_ fuel h t x) (filter t xs) Nil.
Proof.
  intros t h x ps xs w H N. induction H as [w|p a d ps xs w E H IH]; intros fuel L;
    (destruct fuel as [|fuel]; [lia|]); cbn [filter_ filter].
  - rewrite (ends_not_pair _ _ N). exists Nil, h, []. repeat split; auto; constructor.
  - destruct (seg_cons_car _ _ _ _ E) as (-> & -> & ->). cbn [rbind].
    destruct (t a); [apply copies_cons|]; apply IH; try exact N; cbn in L; lia.
Qed.
(** alist-copy: fresh spine, fresh entries *)
Definition entry (h : heap) (e k v : val) : Prop := car h e = Done k /\ cdr h e = Done v.
Lemma entry_ext : forall h h' e k v, ext h h' -> entry h e k v -> entry h' e k v.
Proof.
  intros h h' [|b|p] k v X (C & D); cbn in *; try discriminate.
  destruct (nth_error h p) as [o|] eqn:E; [|discriminate]. unfold entry. cbn. rewrite (ext_nth _ _ _ _ X E). auto.
Qed.
Lemma alist_copy_spec : forall h x ps es w, seg h x ps es w -> ends h w ->
  forall ks, Forall2 (fun e kv => entry h e (fst kv) (snd kv)) es ks -> forall fuel, length es < fuel ->
  exists r h' ps' es', alist_copy fuel h x = Done (r, h') /\ ext h h' /\ seg h' r ps' es' Nil /\ fresh h ps' /\
    Forall2 (fun e kv => entry h' e (fst kv) (snd kv)) es' ks /\
    Forall (fun e => exists p, e = Ptr p /\ length h <= p /\ is_pair h' e = true) es' /\ NoDup es'.
Proof.
  intros h x ps es w H N. induction H as [w|p a d ps es w E H IH]; intros ks F fuel L;
    (destruct fuel as [|fuel]; [lia|]); cbn [alist_copy]; inversion F; subst.
  - rewrite (ends_not_pair _ _ N). exists Nil, h, [], []. repeat split; auto; constructor.
  - destruct y as [k v]. destruct H2 as (Hk & Hv). cbn [fst snd] in *.
    destruct (seg_cons_car _ _ _ _ E) as (-> & -> & ->). cbn [rbind]. rewrite Hk, Hv. cbn [rbind].
    destruct (IH N l' H4 fuel) as (r & h1 & qs & es' & -> & E1 & S1 & F1 & A1 & B1 & D1); [cbn in L; lia|].
    cbn [rbind cons_].
    set (h2 := h1 ++ [Obj true k v]). set (c := Ptr (length h1)).
    assert (E12 : ext h1 h2) by (eexists; reflexivity).
    assert (E2 : ext h h2) by (exact (ext_trans _ _ _ E1 E12)).
    assert (S2 : seg h2 r qs es' Nil) by (exact (seg_ext _ _ _ _ _ _ E12 S1)).
    destruct (cons_seg h h2 r qs es' Nil c E2 S2 F1) as (E3 & S3 & F3). cbn [cons_ fst snd] in *.
    assert (Hc : nth_error h2 (length h1) = Some (Obj true k v)).
    { unfold h2. rewrite nth_error_app2 by lia. rewrite Nat.sub_diag. reflexivity. }
    assert (E23 : ext h2 (h2 ++ [Obj true c r])) by (eexists; reflexivity).
    pose proof (ext_nth _ _ _ _ E23 Hc) as Hc'.
    assert (E13 : ext h1 (h2 ++ [Obj true c r])) by (exact (ext_trans _ _ _ E12 E23)).
    exists (Ptr (length h2)), (h2 ++ [Obj true c r]), (length h2 :: qs), (c :: es').
    repeat match goal with |- _ /\ _ => split end; auto.
    + constructor.
      * unfold c in Hc' |- *. unfold entry, car, cdr. rewrite Hc'. auto.
      * clear -A1 E13. induction A1; constructor; auto. eapply entry_ext; eauto.
    + constructor.
      * exists (length h1). split; [reflexivity|]. split; [apply ext_length; exact E1|].
        unfold c in Hc' |- *. unfold is_pair. rewrite Hc'. reflexivity.
      * eapply Forall_impl; [|exact B1]. cbn beta. intros e (q & -> & Hq & P). exists q. split; [reflexivity|]. split; [exact Hq|].
        cbn in P |- *. destruct (nth_error h1 q) eqn:Q; [|discriminate]. rewrite (ext_nth _ _ _ _ E13 Q). exact P.
    + constructor; [|exact D1]. intros I. rewrite Forall_forall in B1. destruct (B1 _ I) as (q & Q & _ & P).
      unfold c in Q. injection Q as <-. unfold c in P. cbn in P.
      assert (nth_error h1 (length h1) = None) by (apply nth_error_None; lia).
      rewrite H0 in P. discriminate.
Qed.

(** ** Writing procedures *)
Lemma put_nth : forall h p o q, nth_error (put h p o) q =
  if Nat.eqb p q then match nth_error h q with Some _ => Some o | None => None end else nth_error h q.
Proof.
  induction h as [|x h IH]; intros [|p] o [|q]; cbn; try reflexivity.
  - destruct (Nat.eqb p q); reflexivity.
  - rewrite IH. destruct (Nat.eqb p q); reflexivity.
Qed.
Lemma touched_refl : forall h ps, touched h h ps.
Proof. intros h ps q o E. exists o. auto. Qed.
Lemma touched_mono : forall h h' ps qs, touched h h' ps -> incl ps qs -> touched h h' qs.
Proof. intros h h' ps qs T I q o E. destruct (T q o E) as (o' & A & B & C & D). exists o'. repeat split; auto. Qed.
Lemma touched_trans : forall a b c ps, touched a b ps -> touched b c ps -> touched a c ps.
Proof.
  intros a b c ps T1 T2 q o E. destruct (T1 q o E) as (o1 & A & B & C & D). destruct (T2 q o1 A) as (o2 & A2 & B2 & C2 & D2).
  exists o2. repeat split; auto; try congruence. intros N. rewrite D2, D by exact N. reflexivity.
Qed.
Lemma touched_ext : forall h h' ps, ext h h' -> touched h h' ps.
Proof. intros h h' ps X q o E. exists o. repeat split; auto. eauto using ext_nth. Qed.
Lemma set_cdr_spec : forall h p a d v, nth_error h p = Some (Obj true a d) ->
  exists h', set_cdr h (Ptr p) v = Done h' /\ nth_error h' p = Some (Obj true a v) /\ touched h h' [p].
Proof.
  intros h p a d v E. unfold set_cdr. rewrite E. eexists. split; [reflexivity|]. cbn [pairp first]. split.
  - rewrite put_nth, Nat.eqb_refl, E. reflexivity.
  - intros q o Eq. rewrite put_nth. destruct (Nat.eqb_spec p q) as [->|Hn].
    + rewrite Eq. eexists. split; [reflexivity|]. rewrite E in Eq. injection Eq as <-. cbn. repeat split; auto.
      intros N. exfalso. apply N. left. reflexivity.
    + exists o. auto.
Qed.
Lemma seg_touched : forall h h' v ps xs w qs, seg h v ps xs w -> touched h h' qs ->
  (forall p, In p ps -> ~ In p qs) -> seg h' v ps xs w.
Proof.
  intros h h' v ps xs w qs H T. induction H as [|p a d ps xs w E H IH]; intros D; [constructor|].
  destruct (T p _ E) as (o & A & B & C & S). cbn in *. apply seg_cons with (d := d).
  - rewrite A. f_equal. destruct o as [b f s]; cbn in *. rewrite S by (apply D; left; reflexivity). congruence.
  - apply IH. intros q Hq. apply D. right. exact Hq.
Qed.
Lemma ends_touched : forall h h' w qs, ends h w -> touched h h' qs -> ends h' w.
Proof. intros h h' [|b|p] qs H T; try exact I. destruct H as (o & E & P). destruct (T p o E) as (o' & A & B & _). exists o'. split; congruence. Qed.
(** redirecting the cdr of the [n]th pair *)
Lemma relink : forall h x qs q rs ys a zs w v, seg h x (qs ++ q :: rs) (ys ++ a :: zs) w -> ends h w -> length qs = length ys ->
  exists h', set_cdr h (Ptr q) v = Done h' /\ touched h h' [q] /\ seg h' x (qs ++ [q]) (ys ++ [a]) v.
Proof.
  intros h x qs q rs ys a zs w v H N L.
  pose proof (seg_nodup _ _ _ _ _ H N) as ND.
  assert (Hq : exists d, nth_error h q = Some (Obj true a d)).
  { clear N ND. revert x ys H L. induction qs as [|q0 qs IH]; intros x [|y0 ys] H L; cbn in *; try lia; inversion H; subst; eauto. }
  destruct Hq as (d & Hq). destruct (set_cdr_spec h q a d v Hq) as (h' & -> & Eq & T).
  exists h'. split; [reflexivity|]. split; [exact T|].
  clear N. revert x ys H L ND. induction qs as [|q0 qs IH]; intros x [|y0 ys] H L ND; cbn in *; try lia; inversion H; subst.
  - econstructor; [exact Eq|constructor].
  - inversion ND; subst. destruct (T q0 _ H6) as (o & A & B & C & D). cbn in *.
    apply seg_cons with (d := d0); [|apply IH; [assumption|lia|assumption]].
    rewrite A. destruct o as [b f s]; cbn in *. rewrite D; [congruence|].
    intros [->|[]]. apply H2. apply in_or_app. right. left. reflexivity.
Qed.
Lemma split_nth : forall {A} (l : list A) n, n < length l -> exists a r, l = firstn n l ++ a :: r /\ firstn (S n) l = firstn n l ++ [a] /\ skipn n l = a :: r.
Proof.
  intros A l n. revert l. induction n as [|n IH]; intros [|x l] L; cbn in L; try lia.
  - exists x, l. auto.
  - destruct (IH l ltac:(lia)) as (a & r & E1 & E2 & E3). exists a, r. cbn [firstn skipn app]. repeat split.
    + rewrite E1 at 1. reflexivity.
    + rewrite <- E2. reflexivity.
    + exact E3.
Qed.
Lemma take_x_spec : forall h x ps xs w k, seg h x ps xs w -> ends h w -> k <= length xs ->
  exists r h', take_x h x k = Done (r, h') /\ touched h h' ps /\ seg h' r (firstn k ps) (firstn k xs) Nil.
Proof.
  intros h x ps xs w k H N L. destruct k as [|k].
  { exists Nil, h. repeat split; [apply touched_refl|constructor]. }
  unfold take_x. pose proof (seg_lengths _ _ _ _ _ H) as Le.
  destruct (split_nth xs k L) as (a & zs & E1 & E2 & E3). destruct (split_nth ps k ltac:(lia)) as (q & rs & F1 & F2 & F3).
  destruct (drop_spec _ _ _ _ _ H k ltac:(lia)) as (v & -> & Sv). rewrite E3, F3 in Sv. inversion Sv; subst v.
  cbn [rbind]. pose proof H as H'. rewrite E1, F1 in H'.
  destruct (relink h x _ q rs _ a zs w Nil H' N) as (h' & -> & T & S'). { rewrite !firstn_length. lia. }
  cbn [rbind]. exists x, h'. split; [reflexivity|]. split.
  - eapply touched_mono; [exact T|]. intros y [<-|[]]. rewrite F1. apply in_or_app. right. left. reflexivity.
  - rewrite E2, F2. exact S'.
Qed.
Lemma drop_right_x_loop_spec : forall h y qs ys w, seg h y qs ys w -> ends h w ->
  forall fuel x ps xs, seg h x ps xs w -> length ys < length xs -> length ys < fuel ->
  exists q, nth_error ps (length ys) = Some q /\ drop_right_x_loop fuel h x y = set_cdr h (Ptr q) Nil.
Proof.
  intros h y qs ys w H N. induction H as [w|p a d qs ys w E H IH]; intros fuel x ps xs S L F;
    (destruct fuel as [|fuel]; [lia|]); cbn [drop_right_x_loop length].
  - rewrite (ends_not_pair _ _ N). inversion S; subst; cbn in L; [lia|]. exists p. auto.
  - destruct (seg_cons_car _ _ _ _ E) as (-> & _ & Hd). cbn in L, F.
    inversion S; subst; cbn in L; [lia|].
    destruct (seg_cons_car _ _ _ _ H0) as (_ & _ & ->). cbn [rbind]. rewrite Hd. cbn [rbind nth_error].
    eapply IH; [exact N|eassumption|lia|lia].
Qed.
Lemma drop_right_x_spec : forall h x ps xs w k fuel, seg h x ps xs w -> ends h w -> k <= length xs -> length xs < fuel ->
  exists r h', drop_right_x fuel h x k = Done (r, h') /\ touched h h' ps /\
    seg h' r (firstn (length xs - k) ps) (firstn (length xs - k) xs) Nil.
Proof.
  intros h x ps xs w k fuel H N L F. unfold drop_right_x. pose proof (seg_lengths _ _ _ _ _ H) as Le.
  destruct (drop_spec _ _ _ _ _ H k L) as (y & -> & Sy). cbn [rbind].
  destruct (Nat.eq_dec k (length xs)) as [->|Hk].
  { rewrite skipn_all2 in Sy by lia. rewrite skipn_all2 in Sy by lia. inversion Sy; subst.
    rewrite (ends_not_pair _ _ N), Nat.sub_diag. exists Nil, h. repeat split; [apply touched_refl|constructor]. }
  pose proof (skipn_length k xs) as Ls.
  inversion Sy as [? A B C|p a d qs ys w' E Sd A B C]; subst. { rewrite <- C in Ls. cbn in Ls. lia. }
  destruct (seg_cons_car _ _ _ _ E) as (-> & _ & ->). cbn [rbind].
  rewrite <- C in Ls. cbn in Ls.
  destruct (drop_right_x_loop_spec _ _ _ _ _ Sd N fuel x ps xs H ltac:(lia) ltac:(lia)) as (q & Eq & ->).
  destruct (split_nth xs (length ys) ltac:(lia)) as (b & zs & E1 & E2 & E3).
  destruct (split_nth ps (length ys) ltac:(lia)) as (q' & rs & F1 & F2 & F3).
  assert (q' = q).
  { rewrite F1, nth_error_app2 in Eq by (rewrite firstn_length; lia).
    rewrite firstn_length, Nat.min_l, Nat.sub_diag in Eq by lia. cbn in Eq. congruence. }
  subst q'. pose proof H as H'. rewrite E1, F1 in H'.
  destruct (relink h x _ q rs _ b zs w Nil H' N) as (h' & -> & T & S'). { rewrite !firstn_length. lia. }
  cbn [rbind]. exists x, h'. split; [reflexivity|]. split.
  - eapply touched_mono; [exact T|]. intros z [<-|[]]. rewrite F1. apply in_or_app. right. left. reflexivity.
  - replace (length xs - k) with (S (length ys)) by lia. rewrite E2, F2. exact S'.
Qed.
Lemma append_x2_spec : forall h x ps xs y fuel, seg h x ps xs Nil -> length xs <= fuel ->
  exists r h', append_x2 fuel h x y = Done (r, h') /\ touched h h' ps /\ seg h' r ps xs y.
Proof.
  intros h x ps xs y fuel H L. unfold append_x2. inversion H; subst.
  { exists y, h. cbn [is_null]. repeat split; [apply touched_refl|constructor]. }
  cbn [is_null]. destruct (is_null y) eqn:Ny.
  { destruct y; try discriminate. exists (Ptr p), h. repeat split; [apply touched_refl|exact H]. }
  pose proof (seg_lengths _ _ _ _ _ H) as Le.
  destruct (snoc_cases (p :: ps0)) as [Q|(qs & q & Q)]; [discriminate|].
  destruct (snoc_cases (a :: xs0)) as [R|(ys & b & R)]; [discriminate|]. rewrite Q, R in *.
  rewrite !app_length in Le. cbn in Le.
  destruct (last_pair_spec _ _ _ _ _ H I qs q ys b eq_refl eq_refl fuel L) as (-> & E). cbn [rbind].
  destruct (relink h (Ptr p) qs q [] ys b [] Nil y H I ltac:(lia)) as (h' & -> & T & S'). cbn [rbind].
  exists (Ptr p), h'. split; [reflexivity|]. split; [|exact S'].
  eapply touched_mono; [exact T|]. intros z [<-|[]]. apply in_or_app. right. left. reflexivity.
Qed.
Lemma append_x_spec : forall vs pss xss h y fuel,
  Forall2 (fun v (l : list nat * list val) => seg h v (fst l) (snd l) Nil) vs (combine pss xss) ->
  length pss = length xss -> NoDup (concat pss) -> length (concat xss) <= fuel ->
  exists r h', append_x_proc fuel h (vs ++ [y]) = Done (r, h') /\ touched h h' (concat pss) /\
    seg h' r (concat pss) (concat xss) y.
Proof.
  assert (G : forall vs pss xss h y fuel,
    Forall2 (fun v (l : list nat * list val) => seg h v (fst l) (snd l) Nil) vs (combine pss xss) ->
    length pss = length xss -> NoDup (concat pss) -> length (concat xss) <= fuel ->
    exists r h', match vs ++ [y] with x :: l => append_x fuel h x l | [] => Ub end = Done (r, h') /\
      touched h h' (concat pss) /\ seg h' r (concat pss) (concat xss) y).
  { induction vs as [|v vs IH]; intros [|ps pss] [|xs xss] h y fuel F L ND Lf; cbn in L; try lia; cbn [combine] in F; inversion F; subst.
    - exists y, h. cbn. repeat split; [apply touched_refl|constructor].
    - cbn [concat app fst snd] in *.
      assert (ND2 : NoDup (concat pss) /\ (forall p, In p ps -> ~ In p (concat pss))).
      { clear -ND. induction ps as [|p ps IHp]; cbn in *; [split; [exact ND|tauto]|].
        inversion ND; subst. destruct (IHp H2) as [A B]. split; [exact A|]. intros q [<-|Q]; [|auto].
        intros C. apply H1. apply in_or_app. auto. }
      destruct ND2 as [ND2 Dis]. rewrite app_length in Lf.
      destruct (IH pss xss h y fuel H4 ltac:(lia) ND2 ltac:(lia)) as (r & h1 & R & T & S).
      destruct (vs ++ [y]) as [|u us] eqn:Q; [destruct vs; discriminate|]. cbn [append_x]. rewrite R. cbn [rbind].
      pose proof (seg_touched _ _ _ _ _ _ _ H2 T Dis) as Sv.
      assert (T' : touched h h1 (ps ++ concat pss)) by (eapply touched_mono; [exact T|intros z Hz; apply in_or_app; auto]).
      destruct (append_x2_spec h1 v ps xs r fuel Sv ltac:(lia)) as (r2 & h2 & R2 & T2 & S2).
      destruct (is_null v) eqn:Nv.
      + destruct v; try discriminate. inversion H2; subst. exists r, h1. cbn [app]. auto.
      + rewrite R2. exists r2, h2. split; [reflexivity|]. split.
        * eapply touched_trans; [exact T'|]. eapply touched_mono; [exact T2|]. intros z Hz. apply in_or_app. auto.
        * eapply seg_app; [exact S2|]. eapply seg_touched; [exact S|exact T2|]. intros p Hp Hq. exact (Dis p Hq Hp). }
  intros vs pss xss h y fuel F L ND Lf. destruct (G vs pss xss h y fuel F L ND Lf) as (r & h' & R & T).
  exists r, h'. unfold append_x_proc. destruct (vs ++ [y]); [discriminate|]. auto.
Qed.

(** reverse!: the first pair is reused as the last one, the rest is copied *)
Lemma reverse_x_spec : forall h x p ps a xs w fuel, seg h x (p :: ps) (a :: xs) w -> ends h w -> length xs < fuel ->
  exists r h' qs, reverse_x fuel h x = Done (r, h') /\ touched h h' [p] /\
    seg h' r qs (rev (a :: xs)) Nil.
Proof.
  intros h x p ps a xs w fuel H N L. unfold reverse_x.
  pose proof (seg_nodup _ _ _ _ _ H N) as ND. inversion ND; subst.
  inversion H as [|p' a' d ps' xs' w' Ed Sd]; subst. cbn [is_null]. destruct (seg_cons_car _ _ _ _ Ed) as (_ & _ & ->). cbn [rbind].
  destruct (set_cdr_spec h p a d Nil Ed) as (h1 & -> & E1 & T). cbn [rbind].
  assert (S1 : seg h1 d ps xs w).
  { eapply seg_touched; [eassumption|exact T|]. intros q Hq [<-|[]]. tauto. }
  assert (S0 : seg h1 (Ptr p) [p] [a] Nil) by (econstructor; [exact E1|constructor]).
  destruct (reverse_loop_spec [] d ps xs w h1 S1 (ends_touched _ _ _ _ N T) ltac:(exists h1; reflexivity) fuel (Ptr p) [p] [a] Nil S0)
    as (r & h' & qs & R & E & S & _); auto.
  { split; [constructor; [tauto|constructor]|constructor; [cbn; lia|constructor]]. }
  exists r, h', qs. split; [exact R|]. split; [|exact S].
  eapply touched_trans; [exact T|]. apply touched_ext. exact E.
Qed.
Lemma append_reverse_x_spec : forall h x p ps a xs y fuel, seg h x (p :: ps) (a :: xs) Nil -> length xs < fuel ->
  exists r h' qs, append_reverse_x fuel h x y = Done (r, h') /\ touched h h' [p] /\
    seg h' r qs (rev (a :: xs)) y.
Proof.
  intros h x p ps a xs y fuel H L. unfold append_reverse_x.
  pose proof (seg_nodup _ _ _ _ _ H I) as ND. inversion ND; subst.
  inversion H as [|p' a' d ps' xs' w' Ed Sd]; subst. cbn [is_null]. destruct (seg_cons_car _ _ _ _ Ed) as (_ & _ & ->). cbn [rbind].
  destruct (set_cdr_spec h p a d y Ed) as (h1 & -> & E1 & T). cbn [rbind].
  assert (S1 : seg h1 d ps xs Nil).
  { eapply seg_touched; [eassumption|exact T|]. intros q Hq [<-|[]]. tauto. }
  assert (S0 : seg h1 (Ptr p) [p] [a] y) by (econstructor; [exact E1|constructor]).
  destruct (append_reverse_gen [] d ps xs h1 S1 ltac:(exists h1; reflexivity) fuel (Ptr p) [p] [a] y S0)
    as (r & h' & qs & R & E & S & _); auto.
  { split; [constructor; [tauto|constructor]|constructor; [cbn; lia|constructor]]. }
  exists r, h', qs. split; [exact R|]. split; [|exact S].
  eapply touched_trans; [exact T|]. apply touched_ext. exact E.
Qed.
Lemma circulate_spec : forall h x ps xs w fuel, seg h x ps xs w -> ends h w -> xs <> [] -> length xs <= fuel ->
  exists h', circulate fuel h x = Done h' /\ touched h h' ps /\ seg h' x ps xs x.
Proof.
  intros h x ps xs w fuel H N NE L. unfold circulate. pose proof (seg_lengths _ _ _ _ _ H) as Le.
  destruct (snoc_cases xs) as [Q|(ys & b & Q)]; [congruence|].
  destruct (snoc_cases ps) as [R|(qs & q & R)]; subst; [rewrite app_length in Le; cbn in Le; lia|].
  rewrite !app_length in Le. cbn in Le.
  destruct (last_pair_spec _ _ _ _ _ H N qs q ys b eq_refl eq_refl fuel L) as (-> & E). cbn [rbind].
  destruct (relink h x qs q [] ys b [] w x H N ltac:(lia)) as (h' & -> & T & S').
  exists h'. split; [reflexivity|]. split; [|exact S'].
  eapply touched_mono; [exact T|]. intros z [<-|[]]. apply in_or_app. right. left. reflexivity.
Qed.
Lemma circular_list_spec : forall h x ps xs w fuel, seg h x ps xs w -> ends h w -> xs <> [] -> length xs < fuel ->
  exists r h' qs, circular_list fuel h x = Done (r, h') /\ touched h h' [] /\ fresh h qs /\ seg h' r qs xs r.
Proof.
  intros h x ps xs w fuel H N NE L. unfold circular_list.
  destruct (list_copy_spec _ _ _ _ _ H N fuel L) as (c & h1 & qs & -> & E & S & F). cbn [rbind].
  destruct (circulate_spec h1 c qs xs w fuel S (ends_ext _ _ _ E N) NE ltac:(lia)) as (h' & -> & T & S'). cbn [rbind].
  exists c, h', qs. repeat match goal with |- _ /\ _ => split end; auto.
  intros q o Eq. destruct (T q o (ext_nth _ _ _ _ E Eq)) as (o' & A & B & C & D). exists o'. repeat split; auto.
  intros _. apply D. intros I. destruct F as [_ F]. rewrite Forall_forall in F. apply F in I.
  assert (q < length h) by (apply nth_error_Some; congruence). lia.
Qed.
Lemma seg_circular : forall h x ps xs, seg h x ps xs x -> xs <> [] -> circular h x.
Proof.
  intros h x ps xs H NE n. pose proof (seg_chain _ _ _ _ _ H) as C. pose proof (seg_lengths _ _ _ _ _ H) as Le.
  assert (0 < length ps) by (destruct xs; [congruence|cbn in Le; lia]).
  assert (M : forall k, chain h (length ps * k) x = Some x).
  { induction k as [|k IH]; [rewrite Nat.mul_0_r; reflexivity|]. replace (length ps * S k) with (length ps + length ps * k) by lia.
    rewrite (chain_add _ _ _ _ _ C). exact IH. }
  pose proof (M (S n)) as B. replace (length ps * S n) with (n + S (length ps * S n - n - 1)) in B by nia.
  destruct (chain_prefix _ _ _ _ _ B) as (y & Y). exists y. split; [exact Y|].
  rewrite (chain_add _ _ _ _ _ Y) in B. apply is_pair_iff. eapply chain_step_pair. exact B.
Qed.

(** ** Searching *)
Lemma mem_spec : forall same x h v ps xs w, seg h v ps xs w -> ends h w -> forall fuel, length xs < fuel ->
  (mem fuel h same x v = Done None /\ Forall (fun a => same x a = false) xs) \/
  (exists pre a post t, xs = pre ++ a :: post /\ Forall (fun a => same x a = false) pre /\ same x a = true /\
     mem fuel h same x v = Done (Some t) /\ seg h t (skipn (length pre) ps) (a :: post) w).
Proof.
  intros same x h v ps xs w H N. induction H as [w|p a d ps xs w E H IH]; intros fuel L;
    (destruct fuel as [|fuel]; [lia|]); cbn [mem].
  - left. rewrite (ends_not_pair _ _ N). split; [reflexivity|constructor].
  - destruct (seg_cons_car _ _ _ _ E) as (-> & -> & ->). cbn [rbind]. destruct (same x a) eqn:Sa.
    + right. exists [], a, xs, (Ptr p). cbn. repeat split; auto. econstructor; eassumption.
    + destruct (IH N fuel) as [(-> & F)|(pre & b & post & t & -> & F & Sb & -> & St)]; [cbn in L; lia| |].
      * left. split; [reflexivity|]. constructor; assumption.
      * right. exists (a :: pre), b, post, t. cbn. repeat split; auto.
Qed.
Lemma ass_spec : forall same x h v ps es w, seg h v ps es w -> ends h w ->
  forall ks, Forall2 (fun e k => car h e = Done k) es ks -> forall fuel, length es < fuel ->
  (ass fuel h same x v = Done None /\ Forall (fun k => same x k = false) ks) \/
  (exists kpre k kpost pre e post, ks = kpre ++ k :: kpost /\ es = pre ++ e :: post /\ length pre = length kpre /\
     Forall (fun k => same x k = false) kpre /\ same x k = true /\
     ass fuel h same x v = Done (Some e)).
Proof.
  intros same x h v ps es w H N. induction H as [w|p e d ps es w E H IH]; intros ks F fuel L;
    (destruct fuel as [|fuel]; [lia|]); cbn [ass]; inversion F; subst.
  - left. rewrite (ends_not_pair _ _ N). split; [reflexivity|constructor].
  - destruct (seg_cons_car _ _ _ _ E) as (-> & -> & ->). cbn [rbind]. rewrite H2. cbn [rbind].
    destruct (same x y) eqn:Sa.
    + right. exists [], y, l', [], e, es. cbn. repeat split; auto.
    + destruct (IH N l' H4 fuel) as [(-> & G)|(kpre & k & kpost & pre & e' & post & -> & -> & Lp & G & Sb & ->)]; [cbn in L; lia| |].
      * left. split; [reflexivity|]. constructor; assumption.
      * right. exists (y :: kpre), k, kpost, (e :: pre), e', post. cbn. repeat split; auto.
Qed.
