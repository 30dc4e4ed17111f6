(** Proofs about the procedures of SRFI 1. *)
From Coq Require Import ZArith List Bool PeanoNat Lia.
From Verif Require Import Lists ListPredicates ListsProofs Srfi1 Srfi1Spec.
Import ListNotations.

Section Proofs.
Context {W : Type}.
Implicit Types (h : heap) (w : W) (v : val).
Notation M := (M (W := W)). Notation proc := (proc (W := W)). Notation behaviour := (behaviour (W := W)).

Lemma bind_ret : forall A B (m : M A) (k : A -> M B) h w a h' w', m h w = Ret a h' w' -> mbind m k h w = k a h' w'.
Proof. intros. unfold mbind. rewrite H. reflexivity. Qed.
Lemma bind_assoc : forall A B C (m : M A) (k : A -> M B) (l : B -> M C) h w, mbind (mbind m k) l h w = mbind m (fun x => mbind (k x) l) h w.
Proof. intros. unfold mbind. destruct (m h w); reflexivity. Qed.
Lemma seg_shape : forall h v ps xs, seg h v ps xs Nil -> has_shape h v Proper.
Proof. intros h v ps xs S. exists (length ps). apply seg_chain in S. exact S. Qed.
Lemma null_seg : forall h v ps xs w, seg h v ps xs Nil -> null_listq v h w = Ret (nullp xs) h w.
Proof.
  intros h v ps xs w SG. unfold null_listq. destruct (predicates_decide h v) as (s & H & U & D). pose proof (U _ (seg_shape _ _ _ _ SG)) as <-.
  destruct (D (S (length h)) (Nat.lt_succ_diag_r _)) as (P & _ & C). rewrite P, C. inversion SG; subst; reflexivity.
Qed.
Lemma head_seg : forall h p a d w, nth_error h p = Some (Obj true a d) -> head (Ptr p) h w = Ret a h w.
Proof. intros h p a d w E. unfold head, look. cbn. rewrite E. reflexivity. Qed.
Lemma tail_seg : forall h p a d w, nth_error h p = Some (Obj true a d) -> tail (Ptr p) h w = Ret d h w.
Proof. intros h p a d w E. unfold tail, look. cbn. rewrite E. reflexivity. Qed.
Lemma pairq_seg : forall h v ps xs w, seg h v ps xs Nil -> pairq v h w = Ret (negb (nullp xs)) h w.
Proof. intros h v ps xs w S. unfold pairq. inversion S; subst; [reflexivity|]. cbn. rewrite H. reflexivity. Qed.
Lemma pair_run : forall h a d w, pair a d h w = Ret (Ptr (length h)) (h ++ [Obj true a d]) w.
Proof. reflexivity. Qed.
Lemma steady_run : forall h0 h f (g : behaviour) args w r w', steady h0 f g -> ext h0 h -> g args w = Some (r, w') -> f args h w = Ret r h w'.
Proof. intros h0 h f g args w r w' S E G. rewrite (S h args w E), G. reflexivity. Qed.
Lemma test_run : forall h0 h f (g : behaviour) args w r w', steady h0 f g -> ext h0 h -> g args w = Some (r, w') -> test f args h w = Ret (truth r) h w'.
Proof. intros h0 h f g args w r w' S E G. unfold test. erewrite bind_ret by (eapply steady_run; eassumption). reflexivity. Qed.
Lemma steady_ext : forall h h' f (g : behaviour), steady h f g -> ext h h' -> steady h' f g.
Proof. intros h h' f g S E h1 args w E1. apply S. eapply ext_trans; eassumption. Qed.
Lemma pair_seg : forall h v ps xs a, seg h v ps xs Nil -> seg (h ++ [Obj true a v]) (Ptr (length h)) (length h :: ps) (a :: xs) Nil.
Proof.
  intros h v ps xs a S. econstructor.
  - rewrite nth_error_app2 by lia. rewrite Nat.sub_diag. reflexivity.
  - eapply seg_ext; [|exact S]. exists [Obj true a v]. reflexivity.
Qed.
Lemma ext_app : forall h h' o, ext h h' -> ext h (h' ++ [o]).
Proof. intros h h' o E. eapply ext_trans; [exact E|]. exists [o]. reflexivity. Qed.
Hint Resolve ext_refl ext_trans ext_app pair_seg : core.
Ltac run1 := first
  [ erewrite bind_ret by (eapply null_seg; eassumption)
  | erewrite bind_ret by (eapply head_seg; eassumption)
  | erewrite bind_ret by (eapply tail_seg; eassumption)
  | erewrite bind_ret by (eapply pairq_seg; eassumption)
  | erewrite bind_ret by (eapply pair_run)
  | erewrite bind_ret by (eapply test_run; [eassumption|eauto; fail|eassumption])
  | erewrite bind_ret by (eapply steady_run; [eassumption|eauto; fail|eassumption]) ].
Ltac run := repeat (run1; cbn [nullp negb]).
Ltac seg_cases S := let E := fresh "E" in let T := fresh "T" in
  pose proof S as T; inversion T as [|? ? ? ? ? ? E ?]; subst; clear T.

(** *** filter *)
Lemma filter_ok : forall xs h0 (f : proc) (g : behaviour) h v ps w bs w' fuel, steady h0 f g -> ext h0 h -> seg h v ps xs Nil ->
  calls g w (each xs) bs w' -> length xs < fuel ->
  yields (filter fuel f v h w) h w' (fun r h' => plist h' r (keep xs bs)).
Proof.
  induction xs as [|x xs IH]; intros h0 f g h v ps w bs w' fuel St X S C F; (destruct fuel as [|fuel]; [cbn in F; lia|]); cbn [filter].
  - run. inversion C; subst. exists v, h. split; [reflexivity|]. split; [auto|]. exists ps. exact S.
  - seg_cases S. run. inversion C as [|? ? r w1 ? rs ? G C']; subst. run. cbn [keep].
    destruct (IH h0 f g h d ps0 w1 rs w' fuel St X) as (r' & h' & R & X' & P'); [assumption|exact C'|cbn in F; lia|].
    destruct (truth r).
    + erewrite bind_ret by exact R. destruct (veq d r') eqn:V.
      * apply veq_iff in V. subst r'. exists (Ptr p), h'. split; [reflexivity|]. split; [auto|]. destruct P' as (qs & Q). exists (p :: qs). econstructor; [|exact Q]. eapply ext_nth; eassumption.
      * destruct P' as (qs & Q). rewrite pair_run. eexists _, _. split; [reflexivity|]. split; [auto|]. eexists. eauto.
    + exists r', h'. auto.
Qed.

Lemma calls_snoc : forall (g : behaviour) args l w rs w', calls g w (l ++ [args]) rs w' ->
  exists rs0 r w1, rs = rs0 ++ [r] /\ calls g w l rs0 w1 /\ g args w1 = Some (r, w').
Proof.
  intros g args l. induction l as [|a l IH]; intros w rs w' C; inversion C as [|? ? r w1 ? rs1 ? G C']; subst.
  - inversion C'; subst. exists [], r, w. repeat split; [constructor|exact G].
  - destruct (IH _ _ _ C') as (rs0 & r0 & w2 & -> & C0 & G0). exists (r :: rs0), r0, w2. repeat split; [econstructor; eassumption|exact G0].
Qed.
Lemma calls_length : forall (g : behaviour) w argss rs w', calls g w argss rs w' -> length rs = length argss.
Proof. intros g w argss rs w' C. induction C; cbn; congruence. Qed.

(** *** partition *)
Lemma partition_ok : forall xs h0 (f : proc) (g : behaviour) h v ps w bs w' fuel, steady h0 f g -> ext h0 h -> seg h v ps xs Nil ->
  calls g w (each (rev xs)) (rev bs) w' -> length xs < fuel ->
  yields (partition fuel f v h w) h w' (fun r h' => plist h' (fst r) (keep xs bs) /\ plist h' (snd r) (drop_kept xs bs) /\
    (drop_kept xs bs = [] -> fst r = v) /\ (keep xs bs = [] -> snd r = v)).
Proof.
  induction xs as [|x xs IH]; intros h0 f g h v ps w bs w' fuel St X SG C F; (destruct fuel as [|fuel]; [cbn in F; lia|]); cbn [partition].
  - run. assert (bs = []) as ->. { apply calls_length in C. rewrite rev_length in C. destruct bs; [reflexivity|discriminate]. }
    inversion C; subst. exists (v, v), h. split; [reflexivity|]. split; [auto|]. cbn. repeat split; auto; exists ps; exact SG.
  - seg_cases SG. run. cbn [rev] in C. unfold each in C. rewrite map_app in C. cbn [map] in C. apply calls_snoc in C. destruct C as (rs0 & r & w1 & RB & C0 & G0).
    assert (bs = r :: rev rs0) as ->. { rewrite <- (rev_involutive bs), RB, rev_app_distr. reflexivity. }
    rewrite <- (rev_involutive rs0) in C0.
    destruct (IH h0 f g h d ps0 w (rev rs0) w1 fuel St X) as ((a & b) & h1 & R & X1 & (pa & PA) & (pb & PB) & EA & EB); [assumption|exact C0|cbn in F; lia|]. cbn [fst snd] in *.
    erewrite bind_ret by exact R. cbn beta iota. assert (P1 : nth_error h1 p = Some (Obj true x d)) by (eapply ext_nth; eassumption).
    erewrite bind_ret by (eapply test_run; [exact St|eauto|exact G0]). cbn [keep drop_kept]. destruct (truth r).
    + erewrite bind_ret by (eapply pairq_seg; exact PB). destruct (drop_kept xs (rev rs0)) as [|o os] eqn:DK; cbn [nullp negb].
      * erewrite bind_ret by reflexivity. eexists (Ptr p, b), h1. split; [reflexivity|]. split; [auto|]. cbn [fst snd].
        rewrite (EA eq_refl) in PA. repeat split; try discriminate; [|exists pb; exact PB]. exists (p :: pa). econstructor; [exact P1|exact PA].
      * run. eexists (_, b), _. split; [reflexivity|]. split; [auto|]. cbn [fst snd]. repeat split; try discriminate; [eexists; eauto|].
        exists pb. eapply seg_ext; [|exact PB]. eauto.
    + erewrite bind_ret by (eapply pairq_seg; exact PA). destruct (keep xs (rev rs0)) as [|o os] eqn:DK; cbn [nullp negb].
      * erewrite bind_ret by reflexivity. eexists (a, Ptr p), h1. split; [reflexivity|]. split; [auto|]. cbn [fst snd].
        rewrite (EB eq_refl) in PB. repeat split; try discriminate; [exists pa; exact PA|]. exists (p :: pb). econstructor; [exact P1|exact PB].
      * run. eexists (a, _), _. split; [reflexivity|]. split; [auto|]. cbn [fst snd]. repeat split; try discriminate; [|eexists; eauto].
        exists pa. eapply seg_ext; [|exact PA]. eauto.
Qed.

(** *** searching *)
Lemma truth_false : forall v, truth v = false -> v = v_false.
Proof. intros v T. unfold truth in T. apply negb_false_iff in T. apply veq_iff in T. exact T. Qed.
Lemma find_tail_ok : forall xs h (f : proc) (g : behaviour) v ps w o w' fuel, steady h f g -> seg h v ps xs Nil ->
  search g w (each xs) o w' -> length xs < fuel ->
  exists r, find_tail fuel f v h w = Ret r h w' /\ match o with None => r = v_false | Some (n, _) => n < length xs /\ plist h r (skipn n xs) end.
Proof.
  induction xs as [|x xs IH]; intros h f g v ps w o w' fuel St SG C F; (destruct fuel as [|fuel]; [cbn in F; lia|]); cbn [find_tail].
  - run. inversion C; subst. eexists. split; reflexivity.
  - pose proof SG as SG0. seg_cases SG. run. inversion C; subst; run;
    match goal with H : truth _ = _ |- _ => rewrite H end.
    + eexists. split; [reflexivity|]. split; [cbn; lia|]. exists (p :: ps0). exact SG0.
    + run. destruct (IH h f g d ps0 w1 (Some (n, a)) w' fuel) as (r' & R & N & P); try assumption; [cbn in F; lia|].
      exists r'. split; [exact R|]. split; [cbn; lia|exact P].
    + run. destruct (IH h f g d ps0 w1 None w' fuel) as (r' & R & P); try assumption; [cbn in F; lia|]. exists r'. auto.
Qed.
Lemma skipn_nth : forall (xs : list val) n, n < length xs -> exists r, skipn n xs = nth n xs Nil :: r.
Proof. induction xs as [|x xs IH]; intros [|n] L; cbn in *; try lia; [eauto|]. apply IH. lia. Qed.
Lemma plist_pair : forall h v x xs, plist h v (x :: xs) -> exists p d ps, v = Ptr p /\ nth_error h p = Some (Obj true x d) /\ seg h d ps xs Nil.
Proof. intros h v x xs (ps & SG). inversion SG; subst. eauto 6. Qed.
Lemma find_ok : forall xs h (f : proc) (g : behaviour) v ps w o w' fuel, steady h f g -> seg h v ps xs Nil ->
  search g w (each xs) o w' -> length xs < fuel ->
  find fuel f v h w = Ret (match o with None => v_false | Some (n, _) => nth n xs Nil end) h w'.
Proof.
  intros xs h f g v ps w o w' fuel St SG C F. destruct (find_tail_ok _ _ _ _ _ _ _ _ _ _ St SG C F) as (r & R & P).
  unfold find. erewrite bind_ret by exact R. destruct o as [[n a]|].
  - destruct P as (L & P). destruct (skipn_nth xs n L) as (t & T). rewrite T in P. apply plist_pair in P. destruct P as (p & d & qs & -> & E & _). cbn [truth veq v_false negb]. eapply head_seg. exact E.
  - subst r. reflexivity.
Qed.
Lemma list_index_ok1 : forall xs h (f : proc) (g : behaviour) v ps w o w' fuel n, steady h f g -> seg h v ps xs Nil ->
  search g w (each xs) o w' -> length xs < fuel ->
  list_index1 fuel f v n h w = Ret (option_map (fun p => n + fst p) o) h w'.
Proof.
  induction xs as [|x xs IH]; intros h f g v ps w o w' fuel n St SG C F; (destruct fuel as [|fuel]; [cbn in F; lia|]); cbn [list_index1].
  - run. inversion C; subst. reflexivity.
  - seg_cases SG. run. inversion C; subst; run;
    match goal with H : truth _ = _ |- _ => rewrite H end.
    + cbn. rewrite Nat.add_0_r. reflexivity.
    + run. erewrite IH; try eassumption; [|cbn in F; lia]. cbn. do 2 f_equal. lia.
    + run. erewrite IH; try eassumption; [|cbn in F; lia]. reflexivity.
Qed.
Lemma any1_loop_ok : forall xs x h (f : proc) (g : behaviour) v ps w o w' fuel, steady h f g -> seg h v ps xs Nil ->
  search g w (each (x :: xs)) o w' -> length xs < fuel ->
  any1_loop fuel f x v h w = Ret (match o with None => v_false | Some (_, a) => a end) h w'.
Proof.
  induction xs as [|y xs IH]; intros x h f g v ps w o w' fuel St SG C F; (destruct fuel as [|fuel]; [cbn in F; lia|]); cbn [any1_loop].
  - run. assert (exists r, g [x] w = Some (r, w') /\ match o with None => v_false | Some (_, a) => a end = r) as (r & G & ->).
    { unfold each in C. cbn [map] in C. inversion C; subst; [eauto| |]; match goal with H : search _ _ [] _ _ |- _ => inversion H; subst end. eexists; split; [eassumption|]. symmetry. auto using truth_false. }
    eapply steady_run; eauto.
  - seg_cases SG. run. inversion C; subst; run; match goal with H : truth _ = _ |- _ => rewrite H end.
    + reflexivity.
    + run. match goal with Q : search g w1 _ _ _, SG' : seg h d _ _ _ |- _ => rewrite (IH _ _ _ _ _ _ _ _ _ _ St SG' Q) by (cbn in F; lia); reflexivity end.
    + run. match goal with Q : search g w1 _ _ _, SG' : seg h d _ _ _ |- _ => rewrite (IH _ _ _ _ _ _ _ _ _ _ St SG' Q) by (cbn in F; lia); reflexivity end.
Qed.
Lemma any1_ok : forall xs h (f : proc) (g : behaviour) v ps w o w' fuel, steady h f g -> seg h v ps xs Nil ->
  search g w (each xs) o w' -> length xs < fuel ->
  any fuel f v [] h w = Ret (match o with None => v_false | Some (_, a) => a end) h w'.
Proof.
  intros [|x xs] h f g v ps w o w' fuel St SG C F; unfold any; cbn [nullp]; run.
  - inversion C; subst. reflexivity.
  - seg_cases SG. run. eapply any1_loop_ok; try eassumption. cbn in F; lia.
Qed.
Lemma every1_loop_ok : forall xs x h (f : proc) (g : behaviour) v ps w z a w' fuel, steady h f g -> seg h v ps xs Nil ->
  all_true g w (each (x :: xs)) z a w' -> length xs < fuel ->
  every1_loop fuel f x v h w = Ret a h w'.
Proof.
  induction xs as [|y xs IH]; intros x h f g v ps w z a w' fuel St SG C F; (destruct fuel as [|fuel]; [cbn in F; lia|]); cbn [every1_loop].
  - run. eapply steady_run; eauto. unfold each in C. cbn [map] in C. inversion C; subst.
    + match goal with H : truth _ = false |- _ => apply truth_false in H; subst end. assumption.
    + match goal with H : all_true _ _ [] _ _ _ |- _ => inversion H; subst end. assumption.
  - seg_cases SG. run. inversion C; subst; run; match goal with H : truth _ = _ |- _ => rewrite H end.
    + reflexivity.
    + run. eapply IH; try eassumption. cbn in F; lia.
Qed.
Lemma every1_ok : forall xs h (f : proc) (g : behaviour) v ps w a w' fuel, steady h f g -> seg h v ps xs Nil ->
  all_true g w (each xs) v_true a w' -> length xs < fuel -> every fuel f v [] h w = Ret a h w'.
Proof.
  intros [|x xs] h f g v ps w a w' fuel St SG C F; unfold every; cbn [nullp]; run.
  - inversion C; subst. reflexivity.
  - seg_cases SG. run. eapply every1_loop_ok; try eassumption. cbn in F; lia.
Qed.

(** *** folds *)
Lemma count1_ok : forall xs h (f : proc) (g : behaviour) v ps w bs w' fuel i, steady h f g -> seg h v ps xs Nil ->
  calls g w (each xs) bs w' -> length xs < fuel -> count1 fuel f v i h w = Ret (i + trues bs) h w'.
Proof.
  induction xs as [|x xs IH]; intros h f g v ps w bs w' fuel i St SG C F; (destruct fuel as [|fuel]; [cbn in F; lia|]); cbn [count1].
  - run. inversion C; subst. cbn. rewrite Nat.add_0_r. reflexivity.
  - seg_cases SG. run. inversion C; subst. run. erewrite IH; try eassumption; [|cbn in F; lia]. cbn [trues]. destruct (truth r); f_equal; lia.
Qed.
Lemma fold1_ok : forall xs h (f : proc) (g : behaviour) v ps w z r w' fuel, steady h f g -> seg h v ps xs Nil ->
  folds g w (each xs) z r w' -> length xs < fuel -> fold1 fuel f v z h w = Ret r h w'.
Proof.
  induction xs as [|x xs IH]; intros h f g v ps w z r w' fuel St SG C F; (destruct fuel as [|fuel]; [cbn in F; lia|]); cbn [fold1].
  - run. inversion C; subst. reflexivity.
  - seg_cases SG. run. inversion C; subst. cbn [app] in *. run. eapply IH; try eassumption. cbn in F; lia.
Qed.
Lemma pair_fold_ok : forall xs h (f : proc) (g : behaviour) v ps w z r w' fuel, steady h f g -> seg h v ps xs Nil ->
  folds g w (map (fun p => [Ptr p]) ps) z r w' -> length xs < fuel -> pair_fold fuel f v z h w = Ret r h w'.
Proof.
  induction xs as [|x xs IH]; intros h f g v ps w z r w' fuel St SG C F; (destruct fuel as [|fuel]; [cbn in F; lia|]); cbn [pair_fold].
  - run. inversion SG; subst. inversion C; subst. reflexivity.
  - seg_cases SG. run. inversion C; subst. cbn [app] in *. run. eapply IH; try eassumption. cbn in F; lia.
Qed.
Lemma fold_right1_ok : forall xs h (f : proc) (g : behaviour) v ps w z r w' fuel, steady h f g -> seg h v ps xs Nil ->
  folds_right g w (each xs) z r w' -> length xs < fuel -> fold_right1 fuel f z v h w = Ret r h w'.
Proof.
  induction xs as [|x xs IH]; intros h f g v ps w z r w' fuel St SG C F; (destruct fuel as [|fuel]; [cbn in F; lia|]); cbn [fold_right1].
  - run. inversion C; subst. reflexivity.
  - seg_cases SG. run. inversion C; subst. cbn [app] in *. erewrite bind_ret by (eapply IH; try eassumption; cbn in F; lia). eapply steady_run; eauto.
Qed.
Lemma pair_fold_right_ok : forall xs h (f : proc) (g : behaviour) v ps w z r w' fuel, steady h f g -> seg h v ps xs Nil ->
  folds_right g w (map (fun p => [Ptr p]) ps) z r w' -> length xs < fuel -> pair_fold_right fuel f z v h w = Ret r h w'.
Proof.
  induction xs as [|x xs IH]; intros h f g v ps w z r w' fuel St SG C F; (destruct fuel as [|fuel]; [cbn in F; lia|]); cbn [pair_fold_right].
  - run. inversion SG; subst. inversion C; subst. reflexivity.
  - seg_cases SG. run. inversion C; subst. cbn [app] in *. erewrite bind_ret by (eapply IH; try eassumption; cbn in F; lia). eapply steady_run; eauto.
Qed.
Lemma reduce_ok : forall x xs h (f : proc) (g : behaviour) v ps w e r w' fuel, steady h f g -> seg h v ps (x :: xs) Nil ->
  folds g w (each xs) x r w' -> length xs < fuel -> reduce fuel f e v h w = Ret r h w'.
Proof. intros. unfold reduce. run. seg_cases H0. run. eapply fold1_ok; eassumption. Qed.
Lemma reduce_right_loop_ok : forall xs x h (f : proc) (g : behaviour) v ps w r w' fuel, steady h f g -> seg h v ps xs Nil ->
  folds_right g w (each (removelast (x :: xs))) (last (x :: xs) Nil) r w' -> length xs < fuel -> reduce_right_loop fuel f x v h w = Ret r h w'.
Proof.
  induction xs as [|y xs IH]; intros x h f g v ps w r w' fuel St SG C F; (destruct fuel as [|fuel]; [cbn in F; lia|]); cbn [reduce_right_loop].
  - run. inversion C; subst. reflexivity.
  - seg_cases SG. run. change (removelast (x :: y :: xs)) with (x :: removelast (y :: xs)) in C. change (last (x :: y :: xs) Nil) with (last (y :: xs) Nil) in C.
    inversion C; subst. cbn [app] in *. erewrite bind_ret by (eapply IH; try eassumption; cbn in F; lia). eapply steady_run; eauto.
Qed.
Lemma reduce_right_ok : forall x xs h (f : proc) (g : behaviour) v ps w e r w' fuel, steady h f g -> seg h v ps (x :: xs) Nil ->
  folds_right g w (each (removelast (x :: xs))) (last (x :: xs) Nil) r w' -> length xs < fuel -> reduce_right fuel f e v h w = Ret r h w'.
Proof. intros. unfold reduce_right. run. seg_cases H0. run. eapply reduce_right_loop_ok; eassumption. Qed.

(** *** several lists *)
Definition some_empty (xss : list (list val)) : bool := existsb nullp xss.
Lemma shortest_zero : forall xss, xss <> [] -> (shortest xss = 0 <-> some_empty xss = true).
Proof.
  induction xss as [|xs xss IH]; intros N; [contradiction|]. destruct xss as [|ys xss].
  - cbn. destruct xs; cbn; split; intros; congruence.
  - change (shortest (xs :: ys :: xss)) with (Nat.min (length xs) (shortest (ys :: xss))).
    change (some_empty (xs :: ys :: xss)) with (nullp xs || some_empty (ys :: xss)). rewrite orb_true_iff, <- IH by discriminate.
    destruct xs; cbn [length nullp]; split; intros H; try (left; reflexivity); try lia.
Qed.
Lemma shortest_tl : forall xss, xss <> [] -> some_empty xss = false -> shortest xss = S (shortest (map (@tl val) xss)).
Proof.
  induction xss as [|xs xss IH]; intros N E; [contradiction|]. change (nullp xs || some_empty xss = false) in E. apply orb_false_iff in E. destruct E as [E1 E2].
  destruct xss as [|ys xss].
  - destruct xs; [discriminate|reflexivity].
  - change (shortest (xs :: ys :: xss)) with (Nat.min (length xs) (shortest (ys :: xss))). rewrite IH by (discriminate || exact E2).
    change (map (@tl val) (xs :: ys :: xss)) with (tl xs :: map (@tl val) (ys :: xss)).
    change (shortest (tl xs :: map (@tl val) (ys :: xss))) with (Nat.min (length (tl xs)) (shortest (map (@tl val) (ys :: xss)))).
    destruct xs; [discriminate|reflexivity].
Qed.
Lemma rows_none : forall xss, xss <> [] -> some_empty xss = true -> rows xss = [].
Proof. intros xss N E. unfold rows. apply shortest_zero in E; [|exact N]. rewrite E. reflexivity. Qed.
Lemma rows_more : forall xss, xss <> [] -> some_empty xss = false -> rows xss = map (hd Nil) xss :: rows (map (@tl val) xss).
Proof.
  intros xss N E. unfold rows. rewrite shortest_tl by assumption. cbn [seq map]. f_equal.
  - apply map_ext. intros [|x xs]; reflexivity.
  - rewrite <- seq_shift, map_map. apply map_ext. intros i. rewrite map_map. apply map_ext. intros [|x xs]; [destruct i; reflexivity|reflexivity].
Qed.
Lemma rows_one : forall xs, rows [xs] = each xs.
Proof. induction xs as [|x xs IH]; [reflexivity|]. rewrite rows_more by (discriminate || reflexivity). cbn [map hd tl]. rewrite IH. reflexivity. Qed.
Lemma tl_not_nil : forall xss : list (list val), xss <> [] -> map (@tl val) xss <> [].
Proof. intros [|xs xss] N; [contradiction|discriminate]. Qed.

Lemma cars_cdrs_loop_ok : forall h vs xss last w, Forall2 (plist h) vs xss ->
  if some_empty xss then cars_cdrs_loop vs last h w = Ret None h w
  else exists ds, cars_cdrs_loop vs last h w = Ret (Some (map (hd Nil) xss ++ last, ds)) h w /\ Forall2 (plist h) ds (map (@tl val) xss).
Proof.
  intros h vs xss last w H. induction H as [|v xs vs xss (ps & P) H IH]; [exists []; split; [reflexivity|constructor]|]. cbn [some_empty existsb cars_cdrs_loop]. run.
  destruct xs as [|x xs]; cbn [nullp orb]; [reflexivity|]. seg_cases P. run. fold (some_empty xss) in *. destruct (some_empty xss).
  - erewrite bind_ret by exact IH. reflexivity.
  - destruct IH as (ds & R & F). erewrite bind_ret by exact R. exists (d :: ds). split; [reflexivity|]. constructor; [exists ps0; assumption|exact F].
Qed.
Lemma cars_cdrs_plus_ok : forall h vs xss last w, Forall2 (plist h) vs xss ->
  exists cs ds, cars_cdrs_plus vs last h w = Ret (cs, ds) h w /\
  if some_empty xss then cs = [] else cs = map (hd Nil) xss ++ last /\ Forall2 (plist h) ds (map (@tl val) xss).
Proof.
  intros h vs xss last w H. pose proof (cars_cdrs_loop_ok h vs xss last w H) as L. unfold cars_cdrs_plus. destruct (some_empty xss).
  - erewrite bind_ret by exact L. exists [], []. split; reflexivity.
  - destruct L as (ds & R & F). erewrite bind_ret by exact R. eexists _, _. split; [reflexivity|]. split; [reflexivity|exact F].
Qed.
Lemma cdrs_ok : forall h vs xss w, Forall2 (plist h) vs xss ->
  exists ds, cdrs vs h w = Ret ds h w /\ if some_empty xss then ds = [] else Forall2 (plist h) ds (map (@tl val) xss).
Proof.
  intros h vs xss w H. assert (L : if some_empty xss then cdrs_loop vs h w = Ret None h w else exists ds, cdrs_loop vs h w = Ret (Some ds) h w /\ Forall2 (plist h) ds (map (@tl val) xss)).
  { induction H as [|v xs vs xss (ps & P) H IH]; [exists []; split; [reflexivity|constructor]|]. cbn [some_empty existsb cdrs_loop]. run.
    destruct xs as [|x xs]; cbn [nullp orb]; [reflexivity|]. fold (some_empty xss) in *. destruct (some_empty xss).
    - erewrite bind_ret by exact IH. reflexivity.
    - destruct IH as (ds & R & F). erewrite bind_ret by exact R. seg_cases P. run. exists (d :: ds). split; [reflexivity|]. constructor; [exists ps0; assumption|exact F]. }
  unfold cdrs. destruct (some_empty xss).
  - erewrite bind_ret by exact L. exists []. split; reflexivity.
  - destruct L as (ds & R & F). erewrite bind_ret by exact R. exists ds. split; [reflexivity|exact F].
Qed.
Lemma cars_plus_ok : forall h vs xss z w, Forall2 (plist h) vs xss -> some_empty xss = false -> cars_plus vs z h w = Ret (map (hd Nil) xss ++ [z]) h w.
Proof.
  intros h vs xss z w H. induction H as [|v xs vs xss (ps & P) H IH]; intros E; [reflexivity|]. change (nullp xs || some_empty xss = false) in E. apply orb_false_iff in E. destruct E as [E1 E2].
  cbn [cars_plus]. erewrite bind_ret by (apply IH; exact E2). destruct xs as [|x xs]; [discriminate|]. seg_cases P. run. reflexivity.
Qed.
Lemma hd_not_nil : forall A (xss : list (list val)) (l : list A), xss <> [] -> nullp (map (hd Nil) xss ++ []) = false.
Proof. intros A [|xs xss] l N; [contradiction|reflexivity]. Qed.

Lemma foldn_ok : forall n xss h (f : proc) (g : behaviour) vs w z r w' fuel, steady h f g -> Forall2 (plist h) vs xss -> xss <> [] ->
  folds g w (rows xss) z r w' -> shortest xss = n -> n < fuel -> foldn fuel f vs z h w = Ret r h w'.
Proof.
  induction n as [|n IH]; intros xss h f g vs w z r w' fuel St P N C Q F; (destruct fuel as [|fuel]; [lia|]); cbn [foldn];
  destruct (cars_cdrs_plus_ok h vs xss [z] w P) as (cs & ds & R & B); erewrite bind_ret by exact R; destruct (some_empty xss) eqn:E.
  - subst cs. rewrite rows_none in C by assumption. inversion C; subst. reflexivity.
  - apply shortest_zero in Q; [congruence|exact N].
  - apply shortest_zero in E; [congruence|exact N].
  - destruct B as (-> & D). rewrite shortest_tl in Q by assumption. rewrite rows_more in C by assumption. inversion C; subst.
    destruct (nullp (map (hd Nil) xss ++ [z])) eqn:NP; [destruct xss; [contradiction|discriminate]|]. run.
    eapply (IH (map (@tl val) xss)); try eassumption; [auto using tl_not_nil|congruence|lia].
Qed.
Lemma fold_rightn_ok : forall n xss h (f : proc) (g : behaviour) vs w z r w' fuel, steady h f g -> Forall2 (plist h) vs xss -> xss <> [] ->
  folds_right g w (rows xss) z r w' -> shortest xss = n -> n < fuel -> fold_rightn fuel f z vs h w = Ret r h w'.
Proof.
  induction n as [|n IH]; intros xss h f g vs w z r w' fuel St P N C Q F; (destruct fuel as [|fuel]; [lia|]); cbn [fold_rightn];
  destruct (cdrs_ok h vs xss w P) as (ds & R & B); erewrite bind_ret by exact R; destruct (some_empty xss) eqn:E.
  - subst ds. rewrite rows_none in C by assumption. inversion C; subst. reflexivity.
  - apply shortest_zero in Q; [congruence|exact N].
  - apply shortest_zero in E; [congruence|exact N].
  - rewrite shortest_tl in Q by assumption. rewrite rows_more in C by assumption. inversion C; subst.
    destruct ds as [|d ds]; [inversion B; destruct xss; [contradiction|discriminate]|]. cbn [nullp].
    erewrite bind_ret by (eapply (IH (map (@tl val) xss)); try eassumption; [auto using tl_not_nil|congruence|lia]).
    erewrite bind_ret by (eapply cars_plus_ok; eassumption). eapply steady_run; eauto.
Qed.
Lemma rows_nil_not : forall A (xss : list (list val)) (l : list A), xss <> [] -> nullp (map (hd Nil) xss) = false.
Proof. intros A [|xs xss] l N; [contradiction|reflexivity]. Qed.
Lemma cars_cdrs_ok : forall h vs xss w, Forall2 (plist h) vs xss ->
  exists cs ds, cars_cdrs vs h w = Ret (cs, ds) h w /\
  if some_empty xss then cs = [] else cs = map (hd Nil) xss /\ Forall2 (plist h) ds (map (@tl val) xss).
Proof.
  intros h vs xss w H. destruct (cars_cdrs_plus_ok h vs xss [] w H) as (cs & ds & R & B). exists cs, ds. split; [exact R|]. destruct (some_empty xss); [exact B|]. rewrite app_nil_r in B. exact B.
Qed.
Lemma countn_ok : forall n xss x xs h (f : proc) (g : behaviour) v vs w bs w' fuel i, steady h f g -> xss = x :: xs -> Forall2 (plist h) (v :: vs) xss -> xs <> [] ->
  calls g w (rows xss) bs w' -> shortest xss = n -> n < fuel -> countn fuel f v vs i h w = Ret (i + trues bs) h w'.
Proof.
  induction n as [|n IH]; intros xss x xs h f g v vs w bs w' fuel i St -> P N C Q F; (destruct fuel as [|fuel]; [lia|]); cbn [countn]; inversion P as [|? ? ? ? (ps & P1) P2]; subst; run.
  - destruct x as [|y x]; cbn [nullp].
    + rewrite rows_none in C by (discriminate || reflexivity). inversion C; subst. cbn. rewrite Nat.add_0_r. reflexivity.
    + destruct (cars_cdrs_ok h vs xs w P2) as (cs & ds & R & B). erewrite bind_ret by exact R. apply shortest_zero in Q; [|discriminate]. cbn in Q. fold (some_empty xs) in Q. pose proof Q as Q'.
      unfold some_empty in Q'. change (existsb nullp xs) with (some_empty xs) in Q'. rewrite Q' in B. subst cs. cbn [nullp].
      rewrite rows_none in C by (discriminate || exact Q). inversion C; subst. cbn. rewrite Nat.add_0_r. reflexivity.
  - destruct (some_empty (x :: xs)) eqn:E; [apply shortest_zero in E; [congruence|discriminate]|]. pose proof E as E'. change (nullp x || some_empty xs = false) in E'. apply orb_false_iff in E'. destruct E' as [E1 E2].
    rewrite E1. destruct x as [|y x]; [discriminate|]. destruct (cars_cdrs_ok h vs xs w P2) as (cs & ds & R & B). erewrite bind_ret by exact R. rewrite E2 in B. destruct B as (-> & D).
    rewrite (rows_nil_not nat xs []) by exact N. rewrite shortest_tl in Q by (discriminate || exact E). rewrite rows_more in C by (discriminate || exact E). cbn [map hd tl] in C, Q. inversion C; subst.
    seg_cases P1. run. erewrite (IH (x :: map (@tl val) xs)); [|eassumption|reflexivity|constructor; [exists ps0; eassumption|exact D]|auto using tl_not_nil|eassumption|congruence|lia].
    cbn [trues]. destruct (truth r); f_equal; lia.
Qed.
Ltac rows_start xss P h vs w :=
  destruct (cars_cdrs_ok h vs xss w P) as (cs & ds & R & B); erewrite bind_ret by exact R.
Lemma list_indexn_ok : forall n xss h (f : proc) (g : behaviour) vs w o w' fuel i, steady h f g -> Forall2 (plist h) vs xss -> xss <> [] ->
  search g w (rows xss) o w' -> shortest xss = n -> n < fuel -> list_indexn fuel f vs i h w = Ret (option_map (fun p => i + fst p) o) h w'.
Proof.
  induction n as [|n IH]; intros xss h f g vs w o w' fuel i St P N C Q F; (destruct fuel as [|fuel]; [lia|]); cbn [list_indexn]; rows_start xss P h vs w; destruct (some_empty xss) eqn:E.
  - subst cs. rewrite rows_none in C by assumption. inversion C; subst. reflexivity.
  - apply shortest_zero in Q; [congruence|exact N].
  - apply shortest_zero in E; [congruence|exact N].
  - destruct B as (-> & D). rewrite shortest_tl in Q by assumption. rewrite rows_more in C by assumption. rewrite (rows_nil_not nat xss []) by exact N.
    inversion C; subst; run; match goal with H : truth _ = _ |- _ => rewrite H end.
    + cbn. rewrite Nat.add_0_r. reflexivity.
    + match goal with G : search g w1 _ _ _ |- _ => rewrite (IH _ _ _ _ _ _ _ _ _ (S i) St D (tl_not_nil _ N) G) by (congruence || lia) end. cbn. do 2 f_equal. lia.
    + match goal with G : search g w1 _ _ _ |- _ => rewrite (IH _ _ _ _ _ _ _ _ _ (S i) St D (tl_not_nil _ N) G) by (congruence || lia) end. reflexivity.
Qed.
(** the loops of any and every: the first row is given, the others are in the lists *)
Lemma anyn_loop_ok : forall n xss row h (f : proc) (g : behaviour) vs w o w' fuel, steady h f g -> Forall2 (plist h) vs xss -> xss <> [] ->
  search g w (row :: rows xss) o w' -> shortest xss = n -> n < fuel -> anyn_loop fuel f row vs h w = Ret (match o with None => v_false | Some (_, a) => a end) h w'.
Proof.
  induction n as [|n IH]; intros xss row h f g vs w o w' fuel St P N C Q F; (destruct fuel as [|fuel]; [lia|]); cbn [anyn_loop]; rows_start xss P h vs w; destruct (some_empty xss) eqn:E.
  - subst cs. rewrite rows_none in C by assumption. cbn [nullp].
    assert (exists r, g row w = Some (r, w') /\ match o with None => v_false | Some (_, a) => a end = r) as (r & G & ->).
    { inversion C; subst; [eauto| |]; match goal with H : search _ _ [] _ _ |- _ => inversion H; subst end. eexists; split; [eassumption|]. symmetry. auto using truth_false. }
    eapply steady_run; eauto.
  - apply shortest_zero in Q; [congruence|exact N].
  - apply shortest_zero in E; [congruence|exact N].
  - destruct B as (-> & D). rewrite shortest_tl in Q by assumption. rewrite rows_more in C by assumption. rewrite (rows_nil_not nat xss []) by exact N.
    inversion C; subst; run; match goal with H : truth _ = _ |- _ => rewrite H end; [reflexivity| |];
    match goal with G : search g _ (map _ _ :: rows _) _ _ |- _ => rewrite (IH _ _ _ _ _ _ _ _ _ _ St D (tl_not_nil _ N) G) by (congruence || lia); reflexivity end.
Qed.
Lemma anyn_ok : forall xss h (f : proc) (g : behaviour) v vs w o w' fuel, steady h f g -> Forall2 (plist h) (v :: vs) xss -> vs <> [] ->
  search g w (rows xss) o w' -> shortest xss <= fuel -> any fuel f v vs h w = Ret (match o with None => v_false | Some (_, a) => a end) h w'.
Proof.
  intros xss h f g v vs w o w' fuel St P N C F. unfold any. destruct vs as [|v2 vs]; [contradiction|]. cbn [nullp].
  assert (NX : xss <> []) by (intros ->; inversion P). rows_start xss P h (v :: v2 :: vs) w. destruct (some_empty xss) eqn:E.
  - subst cs. rewrite rows_none in C by assumption. inversion C; subst. reflexivity.
  - destruct B as (-> & D). rewrite (rows_nil_not nat xss []) by exact NX. rewrite rows_more in C by assumption. rewrite shortest_tl in F by assumption.
    eapply anyn_loop_ok; [exact St|exact D|auto using tl_not_nil|exact C|reflexivity|lia].
Qed.
Lemma everyn_loop_ok : forall n xss row h (f : proc) (g : behaviour) vs w z a w' fuel, steady h f g -> Forall2 (plist h) vs xss -> xss <> [] ->
  all_true g w (row :: rows xss) z a w' -> shortest xss = n -> n < fuel -> everyn_loop fuel f row vs h w = Ret a h w'.
Proof.
  induction n as [|n IH]; intros xss row h f g vs w z a w' fuel St P N C Q F; (destruct fuel as [|fuel]; [lia|]); cbn [everyn_loop]; rows_start xss P h vs w; destruct (some_empty xss) eqn:E.
  - subst cs. rewrite rows_none in C by assumption. cbn [nullp]. eapply steady_run; eauto. inversion C; subst.
    + match goal with H : truth _ = false |- _ => apply truth_false in H; subst end. assumption.
    + match goal with H : all_true _ _ [] _ _ _ |- _ => inversion H; subst end. assumption.
  - apply shortest_zero in Q; [congruence|exact N].
  - apply shortest_zero in E; [congruence|exact N].
  - destruct B as (-> & D). rewrite shortest_tl in Q by assumption. rewrite rows_more in C by assumption. rewrite (rows_nil_not nat xss []) by exact N.
    inversion C; subst; run; match goal with H : truth _ = _ |- _ => rewrite H end; [reflexivity|].
    eapply (IH (map (@tl val) xss)); try eassumption; [auto using tl_not_nil|congruence|lia].
Qed.
Lemma everyn_ok : forall xss h (f : proc) (g : behaviour) v vs w a w' fuel, steady h f g -> Forall2 (plist h) (v :: vs) xss -> vs <> [] ->
  all_true g w (rows xss) v_true a w' -> shortest xss <= fuel -> every fuel f v vs h w = Ret a h w'.
Proof.
  intros xss h f g v vs w a w' fuel St P N C F. unfold every. destruct vs as [|v2 vs]; [contradiction|]. cbn [nullp].
  assert (NX : xss <> []) by (intros ->; inversion P). rows_start xss P h (v :: v2 :: vs) w. destruct (some_empty xss) eqn:E.
  - subst cs. rewrite rows_none in C by assumption. inversion C; subst. reflexivity.
  - destruct B as (-> & D). rewrite (rows_nil_not nat xss []) by exact NX. rewrite rows_more in C by assumption. rewrite shortest_tl in F by assumption.
    eapply everyn_loop_ok; [exact St|exact D|auto using tl_not_nil|exact C|reflexivity|lia].
Qed.
(** map-in-order *)
Lemma plist_ext : forall h h' v xs, ext h h' -> plist h v xs -> plist h' v xs.
Proof. intros h h' v xs X (ps & P). exists ps. eapply seg_ext; eassumption. Qed.
Lemma map_in_order1_ok : forall xs h (f : proc) (g : behaviour) v ps w rs w' fuel, steady h f g -> seg h v ps xs Nil ->
  calls g w (each xs) rs w' -> length xs < fuel -> yields (map_in_order1 fuel f v h w) h w' (fun r h' => plist h' r rs).
Proof.
  induction xs as [|x xs IH]; intros h f g v ps w rs w' fuel St SG C F; (destruct fuel as [|fuel]; [cbn in F; lia|]); cbn [map_in_order1].
  - run. inversion C; subst. exists v, h. split; [reflexivity|]. split; [auto|]. exists ps. exact SG.
  - seg_cases SG. run. inversion C as [|? ? r w1 ? rs' ? G C']; subst. run.
    destruct (IH h f g d ps0 w1 rs' w' fuel St) as (t & h' & R & X & (qs & Q)); [assumption|exact C'|cbn in F; lia|].
    erewrite bind_ret by exact R. rewrite pair_run. eexists _, _. split; [reflexivity|]. split; [auto|]. eexists. eauto.
Qed.
Lemma map_in_ordern_ok : forall n xss h (f : proc) (g : behaviour) vs w rs w' fuel, steady h f g -> Forall2 (plist h) vs xss -> xss <> [] ->
  calls g w (rows xss) rs w' -> shortest xss = n -> n < fuel -> yields (map_in_ordern fuel f vs h w) h w' (fun r h' => plist h' r rs).
Proof.
  induction n as [|n IH]; intros xss h f g vs w rs w' fuel St P N C Q F; (destruct fuel as [|fuel]; [lia|]); cbn [map_in_ordern]; unfold yields; rows_start xss P h vs w; destruct (some_empty xss) eqn:E.
  - subst cs. rewrite rows_none in C by assumption. inversion C; subst. exists Nil, h. split; [reflexivity|]. split; [auto|]. exists []. constructor.
  - apply shortest_zero in Q; [congruence|exact N].
  - apply shortest_zero in E; [congruence|exact N].
  - destruct B as (-> & D). rewrite shortest_tl in Q by assumption. rewrite rows_more in C by assumption. rewrite (rows_nil_not nat xss []) by exact N.
    inversion C; subst. run. match goal with G : calls g _ (rows (map (@tl val) _)) _ _ |- _ => destruct (IH _ _ _ _ _ _ _ _ fuel St D (tl_not_nil _ N) G) as (t & h' & R' & X & (qs & S')); [congruence|lia|] end.
    erewrite bind_ret by exact R'. rewrite pair_run. eexists _, _. split; [reflexivity|]. split; [auto|]. eexists. eauto.
Qed.
(** filter-map *)
Lemma filter_map1_ok : forall xs h (f : proc) (g : behaviour) v ps w rs w' fuel, steady h f g -> seg h v ps xs Nil ->
  calls g w (each (rev xs)) (rev rs) w' -> length xs < fuel -> yields (filter_map1 fuel f v h w) h w' (fun r h' => plist h' r (List.filter truth rs)).
Proof.
  induction xs as [|x xs IH]; intros h f g v ps w rs w' fuel St SG C F; (destruct fuel as [|fuel]; [cbn in F; lia|]); cbn [filter_map1].
  - run. assert (rs = []) as ->. { apply calls_length in C. rewrite rev_length in C. destruct rs; [reflexivity|discriminate]. }
    inversion C; subst. exists v, h. split; [reflexivity|]. split; [auto|]. exists ps. exact SG.
  - seg_cases SG. run. cbn [rev] in C. unfold each in C. rewrite map_app in C. cbn [map] in C. apply calls_snoc in C. destruct C as (rs0 & r & w1 & RB & C0 & G0).
    assert (rs = r :: rev rs0) as ->. { rewrite <- (rev_involutive rs), RB, rev_app_distr. reflexivity. }
    rewrite <- (rev_involutive rs0) in C0.
    destruct (IH h f g d ps0 w (rev rs0) w1 fuel St) as (t & h1 & R & X1 & (qs & Q)); [assumption|exact C0|cbn in F; lia|].
    erewrite bind_ret by exact R. assert (P1 : nth_error h1 p = Some (Obj true x d)) by (eapply ext_nth; eassumption).
    run. cbn [List.filter]. destruct (truth r).
    + rewrite pair_run. eexists _, _. split; [reflexivity|]. split; [auto|]. eexists. eauto.
    + exists t, h1. split; [reflexivity|]. split; [auto|]. exists qs. exact Q.
Qed.
Lemma filter_mapn_ok : forall n xss h (f : proc) (g : behaviour) vs w rs w' fuel, steady h f g -> Forall2 (plist h) vs xss -> xss <> [] ->
  calls g w (rows xss) rs w' -> shortest xss = n -> n < fuel -> yields (filter_mapn fuel f vs h w) h w' (fun r h' => plist h' r (List.filter truth rs)).
Proof.
  induction n as [|n IH]; intros xss h f g vs w rs w' fuel St P N C Q F; (destruct fuel as [|fuel]; [lia|]); cbn [filter_mapn]; unfold yields; rows_start xss P h vs w; destruct (some_empty xss) eqn:E.
  - subst cs. rewrite rows_none in C by assumption. inversion C; subst. exists Nil, h. split; [reflexivity|]. split; [auto|]. exists []. constructor.
  - apply shortest_zero in Q; [congruence|exact N].
  - apply shortest_zero in E; [congruence|exact N].
  - destruct B as (-> & D). rewrite shortest_tl in Q by assumption. rewrite rows_more in C by assumption. rewrite (rows_nil_not nat xss []) by exact N.
    inversion C; subst. run. match goal with G : calls g _ (rows (map (@tl val) _)) _ _ |- _ => destruct (IH _ _ _ _ _ _ _ _ fuel St D (tl_not_nil _ N) G) as (t & h' & R' & X & (qs & S')); [congruence|lia|] end.
    cbn [List.filter]. destruct (truth r).
    + erewrite bind_ret by exact R'. rewrite pair_run. eexists _, _. split; [reflexivity|]. split; [auto|]. eexists. eauto.
    + exists t, h'. split; [exact R'|]. split; [auto|]. exists qs. exact S'.
Qed.
End Proofs.
