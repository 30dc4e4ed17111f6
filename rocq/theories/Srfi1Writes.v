(** Proofs about the procedures of SRFI 1 that may alter their argument. *)
From Coq Require Import ZArith List Bool PeanoNat Lia.
From Verif Require Import Lists ListPredicates ListsProofs Srfi1 Srfi1Spec Srfi1Proofs Srfi1Walks.
Import ListNotations.
#[local] Hint Resolve ext_refl ext_trans ext_app pair_seg touched_refl : core.

Section Writes.
Context {W : Type}.
Implicit Types (h : heap) (w : W) (v : val).
Notation M := (M (W := W)). Notation proc := (proc (W := W)). Notation behaviour := (behaviour (W := W)).

Lemma independent_run : forall f (g : behaviour) args w r w' h, independent f g -> g args w = Some (r, w') -> f args h w = Ret r h w'.
Proof. intros f g args w r w' h I G. rewrite (I h h args w (ext_refl h)), G. reflexivity. Qed.
Lemma independent_test : forall f (g : behaviour) args w r w' h, independent f g -> g args w = Some (r, w') -> test f args h w = Ret (truth r) h w'.
Proof. intros. unfold test. erewrite bind_ret by (eapply independent_run; eassumption). reflexivity. Qed.
Lemma write_run : forall h p a d v w, nth_error h p = Some (Obj true a d) ->
  exists h', write_cdr (Ptr p) v h w = Ret tt h' w /\ nth_error h' p = Some (Obj true a v) /\ touched h h' [p].
Proof. intros h p a d v w E. destruct (set_cdr_spec h p a d v E) as (h' & R & N & T). exists h'. unfold write_cdr. rewrite R. auto. Qed.
Lemma incl_keep : forall A (xs : list A) bs, incl (keep xs bs) xs.
Proof. intros A. induction xs as [|x xs IH]; intros [|b bs]; cbn; try (intros ? []; fail). destruct (truth b); [apply incl_cons; [left; reflexivity|]|]; apply incl_tl; apply IH. Qed.
Lemma incl_drop : forall A (xs : list A) bs, incl (drop_kept xs bs) xs.
Proof. intros A. induction xs as [|x xs IH]; intros [|b bs]; cbn; try (intros ? []; fail). destruct (truth b); [|apply incl_cons; [left; reflexivity|]]; apply incl_tl; apply IH. Qed.
Lemma touched_cell : forall h h' qs p a d, touched h h' qs -> nth_error h p = Some (Obj true a d) -> ~ In p qs -> nth_error h' p = Some (Obj true a d).
Proof. intros h h' qs p a d T E N. destruct (T p _ E) as ([b f s] & A & B & C & D). cbn in *. rewrite (D N) in A. congruence. Qed.
Lemma touched_some : forall h h' qs p a d, touched h h' qs -> nth_error h p = Some (Obj true a d) -> exists d', nth_error h' p = Some (Obj true a d').
Proof. intros h h' qs p a d T E. destruct (T p _ E) as ([b f s] & A & B & C & D). cbn in *. exists s. congruence. Qed.
Lemma nodup_seg : forall h v ps xs, seg h v ps xs Nil -> NoDup ps.
Proof. intros h v ps xs S. eapply seg_nodup; [exact S|exact I]. Qed.
Ltac run1' := first [ run1
  | erewrite bind_ret by (eapply independent_test; [eassumption|eassumption])
  | erewrite bind_ret by (eapply independent_run; [eassumption|eassumption]) ].
Ltac run' := repeat (run1'; cbn [nullp negb]).
Ltac fwd := match goal with H : seg _ (Ptr _) (?p :: ?ps) _ Nil |- _ => let ND := fresh "ND" in pose proof (nodup_seg _ _ _ _ H) as ND; inversion ND; subst; clear ND end.

(** *** filter! *)
Lemma filter_x_ok : forall xs h (f : proc) (g : behaviour) v ps w bs w' fuel, independent f g -> seg h v ps xs Nil ->
  calls g w (each xs) bs w' -> length xs < fuel ->
  exists r h', filter_x fuel f v h w = Ret r h' w' /\ touched h h' ps /\ seg h' r (keep ps bs) (keep xs bs) Nil.
Proof.
  induction xs as [|x xs IH]; intros h f g v ps w bs w' fuel St S C F; (destruct fuel as [|fuel]; [cbn in F; lia|]); cbn [filter_x].
  - run. inversion C; subst. inversion S; subst. exists Nil, h. split; [reflexivity|]. split; [auto|constructor].
  - pose proof S as S0. seg_cases S. fwd. run. inversion C as [|? ? r w1 ? rs ? G C']; subst. run'. cbn [keep].
    destruct (IH h f g d ps0 w1 rs w' fuel St) as (r' & h' & R & T & P'); [assumption|exact C'|cbn in F; lia|].
    destruct (truth r).
    + run'. erewrite bind_ret by exact R. assert (E1 : nth_error h' p = Some (Obj true x d)) by (eapply touched_cell; eassumption).
      destruct (write_run h' p x d r' w' E1) as (h2 & R2 & N2 & T2). erewrite bind_ret by exact R2. exists (Ptr p), h2. split; [reflexivity|]. split.
      * eapply touched_trans; eapply touched_mono; try eassumption; [apply incl_tl; apply incl_refl|]. intros q [<-|[]]. left. reflexivity.
      * econstructor; [exact N2|]. eapply seg_touched; [exact P'|exact T2|]. intros q Q [<-|[]]. apply incl_keep in Q. contradiction.
    + run'. exists r', h'. split; [exact R|]. split; [|exact P']. eapply touched_mono; [exact T|]. apply incl_tl. apply incl_refl.
Qed.
Lemma complement_independent : forall (f : proc) (g : behaviour), independent f g -> independent (complement f) (opposite g).
Proof. intros f g I h0. apply complement_steady. apply I. Qed.
Lemma differs_independent : forall (f : proc) (g : behaviour) x, independent f g -> independent (differs f x) (differs_as g x).
Proof. intros f g x I h0. apply differs_steady. apply I. Qed.
Lemma remove_x_ok : forall xs h (f : proc) (g : behaviour) v ps w bs w' fuel, independent f g -> seg h v ps xs Nil ->
  calls g w (each xs) bs w' -> length xs < fuel ->
  exists r h', remove_x fuel f v h w = Ret r h' w' /\ touched h h' ps /\ seg h' r (drop_kept ps bs) (drop_kept xs bs) Nil.
Proof.
  intros xs h f g v ps w bs w' fuel St SG C F. rewrite <- !keep_opposite. unfold remove_x. eapply filter_x_ok; [apply complement_independent; exact St|exact SG|apply calls_opposite; exact C|exact F].
Qed.
Lemma delete_x_ok : forall xs h (f : proc) (g : behaviour) x v ps w bs w' fuel, independent f g -> seg h v ps xs Nil ->
  calls g w (against x xs) bs w' -> length xs < fuel ->
  exists r h', delete_x fuel x v f h w = Ret r h' w' /\ touched h h' ps /\ seg h' r (drop_kept ps bs) (drop_kept xs bs) Nil.
Proof.
  intros xs h f g x v ps w bs w' fuel St SG C F. rewrite <- !keep_opposite. unfold delete_x. eapply filter_x_ok; [apply differs_independent; exact St|exact SG|apply calls_differs; exact C|exact F].
Qed.
Lemma delete_duplicates_x_ok : forall n xs h (f : proc) (g : behaviour) v ps w ys w' fuel, independent f g -> seg h v ps xs Nil -> length xs <= n ->
  dedup g w xs ys w' -> length xs < fuel ->
  exists r h', delete_duplicates_x fuel v f h w = Ret r h' w' /\ touched h h' ps /\ plist h' r ys.
Proof.
  induction n as [|n IH]; intros xs h f g v ps w ys w' fuel St SG L C F; (destruct fuel as [|fuel]; [lia|]); unfold delete_duplicates_x; cbn [delete_duplicates_with]; run.
  - destruct xs; [|cbn in L; lia]. inversion C; subst. exists Nil, h. split; [reflexivity|]. split; [auto|]. exists []. constructor.
  - destruct xs as [|x xs]; cbn [nullp].
    { inversion C; subst. exists Nil, h. split; [reflexivity|]. split; [auto|]. exists []. constructor. }
    pose proof SG as SG0. seg_cases SG. fwd. run. inversion C as [|? ? ? bs w1 ys1 ? CK DD]; subst. cbn in L, F.
    destruct (delete_x_ok xs h f g x d ps0 w bs w1 fuel St) as (r & h1 & R & T & Q); [assumption|exact CK|lia|].
    erewrite bind_ret by exact R. pose proof (drop_kept_length _ xs bs) as DL.
    destruct (IH (drop_kept xs bs) h1 f g r (drop_kept ps0 bs) w1 ys1 w' fuel) as (t & h2 & R2 & T2 & (qs2 & Q2)); [exact St|exact Q|lia|exact DD|lia|].
    assert (T3 : touched h h2 ps0). { eapply touched_trans; [exact T|]. eapply touched_mono; [exact T2|]. apply incl_drop. }
    unfold delete_duplicates_x in R2. erewrite bind_ret by exact R2. destruct (veq d t) eqn:V.
    + apply veq_iff in V. subst t. exists (Ptr p), h2. split; [reflexivity|]. split; [eapply touched_mono; [exact T3|]; apply incl_tl; apply incl_refl|].
      exists (p :: qs2). econstructor; [|exact Q2]. eapply touched_cell; eassumption.
    + rewrite pair_run. eexists _, _. split; [reflexivity|]. split.
      * eapply touched_trans; [eapply touched_mono; [exact T3|apply incl_tl; apply incl_refl]|]. apply touched_ext. auto.
      * eexists. eauto.
Qed.

(** *** partition! *)
Lemma scan_ok : forall xs h (f : proc) (g : behaviour) v ps w bs w' fuel (inside : bool) pi ai di po ao do_, independent f g -> seg h v ps xs Nil ->
  nth_error h pi = Some (Obj true ai di) -> nth_error h po = Some (Obj true ao do_) -> pi <> po -> ~ In pi ps -> ~ In po ps ->
  (if inside then di = v else do_ = v) ->
  calls g w (each xs) bs w' -> length xs < fuel ->
  exists h' di' do', scan fuel f inside (Ptr pi) (Ptr po) v h w = Ret tt h' w' /\ touched h h' (pi :: po :: ps) /\
    nth_error h' pi = Some (Obj true ai di') /\ seg h' di' (keep ps bs) (keep xs bs) Nil /\
    nth_error h' po = Some (Obj true ao do') /\ seg h' do' (drop_kept ps bs) (drop_kept xs bs) Nil.
Proof.
  induction xs as [|x xs IH]; intros h f g v ps w bs w' fuel inside pi ai di po ao do_ St S EI EO NE NI NO LK C F; (destruct fuel as [|fuel]; [cbn in F; lia|]); cbn [scan].
  - run. inversion C; subst. inversion S; subst. cbn [keep drop_kept]. destruct inside; subst.
    + destruct (write_run h po ao do_ Nil w' EO) as (h' & R & N & T). exists h', Nil, Nil. split; [exact R|]. split; [eapply touched_mono; [exact T|]; intros q [<-|[]]; right; left; reflexivity|].
      split; [eapply touched_cell; [exact T|exact EI|]; intros [Q|[]]; congruence|]. repeat split; try constructor. exact N.
    + destruct (write_run h pi ai di Nil w' EI) as (h' & R & N & T). exists h', Nil, Nil. split; [exact R|]. split; [eapply touched_mono; [exact T|]; intros q [<-|[]]; left; reflexivity|].
      split; [exact N|]. split; [constructor|]. split; [eapply touched_cell; [exact T|exact EO|]; intros [Q|[]]; congruence|constructor].
  - pose proof S as S0. seg_cases S. fwd. run. inversion C as [|? ? r w1 ? rs ? G C']; subst. run'. cbn [keep drop_kept]. cbn [In] in NI, NO.
    assert (PI : p <> pi) by tauto. assert (PO : p <> po) by tauto.
    destruct inside; destruct (truth r) eqn:TR; subst.
    + run. destruct (IH h f g d ps0 w1 rs w' fuel true p x d po ao do_) as (h' & di' & do' & R & T & N1 & S1 & N2 & S2); auto; try tauto; [cbn in F; lia|].
      exists h', (Ptr p), do'. split; [exact R|]. split; [eapply touched_mono; [exact T|]; intros q [<-|[<-|Q]]; cbn; tauto|].
      split; [eapply touched_cell; [exact T|exact EI|]; intros [Q|[Q|Q]]; [congruence|congruence|tauto]|].
      split; [econstructor; eassumption|]. split; assumption.
    + destruct (write_run h po ao do_ (Ptr p) w1 EO) as (h1 & R1 & M1 & T1). erewrite bind_ret by exact R1. assert (E1 : nth_error h1 p = Some (Obj true x d)) by (eapply touched_cell; [exact T1|exact E|]; intros [Q|[]]; congruence).
      run. destruct (IH h1 f g d ps0 w1 rs w' fuel false pi ai (Ptr p) p x d) as (h' & di' & do' & R & T & N1 & S1 & N2 & S2); auto; try tauto.
      { eapply seg_touched; [eassumption|exact T1|]. intros q Q [<-|[]]. tauto. }
      { eapply touched_cell; [exact T1|exact EI|]. intros [Q|[]]. congruence. }
      { cbn in F; lia. }
      exists h', di', (Ptr p). split; [exact R|]. split.
      { eapply touched_trans; eapply touched_mono; [exact T1| |exact T|]; [intros q [<-|[]]; cbn; tauto|intros q [<-|[<-|Q]]; cbn; tauto]. }
      split; [exact N1|]. split; [exact S1|]. split; [eapply touched_cell; [exact T|exact M1|]; intros [Q|[Q|Q]]; [congruence|congruence|tauto]|]. econstructor; eassumption.
    + destruct (write_run h pi ai di (Ptr p) w1 EI) as (h1 & R1 & M1 & T1). erewrite bind_ret by exact R1. assert (E1 : nth_error h1 p = Some (Obj true x d)) by (eapply touched_cell; [exact T1|exact E|]; intros [Q|[]]; congruence).
      run. destruct (IH h1 f g d ps0 w1 rs w' fuel true p x d po ao (Ptr p)) as (h' & di' & do' & R & T & N1 & S1 & N2 & S2); auto; try tauto.
      { eapply seg_touched; [eassumption|exact T1|]. intros q Q [<-|[]]. tauto. }
      { eapply touched_cell; [exact T1|exact EO|]. intros [Q|[]]. congruence. }
      { cbn in F; lia. }
      exists h', (Ptr p), do'. split; [exact R|]. split.
      { eapply touched_trans; eapply touched_mono; [exact T1| |exact T|]; [intros q [<-|[]]; cbn; tauto|intros q [<-|[<-|Q]]; cbn; tauto]. }
      split; [eapply touched_cell; [exact T|exact M1|]; intros [Q|[Q|Q]]; [congruence|congruence|tauto]|]. split; [econstructor; eassumption|]. split; assumption.
    + run. destruct (IH h f g d ps0 w1 rs w' fuel false pi ai di p x d) as (h' & di' & do' & R & T & N1 & S1 & N2 & S2); auto; try tauto; [cbn in F; lia|].
      exists h', di', (Ptr p). split; [exact R|]. split; [eapply touched_mono; [exact T|]; intros q [<-|[<-|Q]]; cbn; tauto|].
      split; [exact N1|]. split; [exact S1|]. split; [eapply touched_cell; [exact T|exact EO|]; intros [Q|[Q|Q]]; [congruence|congruence|tauto]|]. econstructor; eassumption.
Qed.
(** lead: prev is the cell before l *)
Lemma seg_last_cell : forall h v qs q ys y m, seg h v (qs ++ [q]) (ys ++ [y]) m -> length qs = length ys -> nth_error h q = Some (Obj true y m).
Proof.
  intros h v qs. revert v. induction qs as [|p qs IH]; intros v q [|z ys] y m S L; cbn in *; try lia.
  - inversion S; subst. inversion H6; subst. assumption.
  - inversion S; subst. eapply IH; [eassumption|lia].
Qed.
Lemma redirect : forall h h' L v qs q ys y m m', seg h v (qs ++ [q]) (ys ++ [y]) m -> length qs = length ys -> touched h h' L -> (forall p, In p qs -> ~ In p L) ->
  nth_error h' q = Some (Obj true y m') -> seg h' v (qs ++ [q]) (ys ++ [y]) m'.
Proof.
  intros h h' L v qs. revert v. induction qs as [|p qs IH]; intros v q [|z ys] y m m' S LN T D E; cbn in *; try lia.
  - inversion S; subst. econstructor; [exact E|constructor].
  - inversion S; subst. econstructor; [eapply touched_cell; [exact T|eassumption|]; apply D; left; reflexivity|]. eapply IH; try eassumption; [lia|]. intros r R. apply D. right. exact R.
Qed.
Lemma keep_app : forall A (xs ys : list A) bs cs, length xs = length bs -> keep (xs ++ ys) (bs ++ cs) = keep xs bs ++ keep ys cs.
Proof. intros A. induction xs as [|x xs IH]; intros ys [|b bs] cs L; cbn in *; try lia; [reflexivity|]. rewrite IH by lia. destruct (truth b); reflexivity. Qed.
Lemma drop_app : forall A (xs ys : list A) bs cs, length xs = length bs -> drop_kept (xs ++ ys) (bs ++ cs) = drop_kept xs bs ++ drop_kept ys cs.
Proof. intros A. induction xs as [|x xs IH]; intros ys [|b bs] cs L; cbn in *; try lia; [reflexivity|]. rewrite IH by lia. destruct (truth b); reflexivity. Qed.
Lemma keep_all : forall A (xs : list A) bs, length xs = length bs -> Forall (fun b => truth b = true) bs -> keep xs bs = xs /\ drop_kept xs bs = [].
Proof. intros A. induction xs as [|x xs IH]; intros [|b bs] L F; cbn in *; try lia; [auto|]. inversion F as [|? ? E F']; subst. rewrite E. destruct (IH bs) as (-> & ->); [lia|exact F'|auto]. Qed.
Lemma keep_none : forall A (xs : list A) bs, length xs = length bs -> Forall (fun b => truth b = false) bs -> keep xs bs = [] /\ drop_kept xs bs = xs.
Proof. intros A. induction xs as [|x xs IH]; intros [|b bs] L F; cbn in *; try lia; [auto|]. inversion F as [|? ? E F']; subst. rewrite E. destruct (IH bs) as (-> & ->); [lia|exact F'|auto]. Qed.
Lemma lead_ok : forall xs h (f : proc) (g : behaviour) l ps w bs w' fuel (inside : bool) v qs q ys y bs0, independent f g -> seg h l ps xs Nil ->
  seg h v (qs ++ [q]) (ys ++ [y]) l -> length qs = length ys -> NoDup ((qs ++ [q]) ++ ps) -> length (qs ++ [q]) = length bs0 -> Forall (fun b => truth b = inside) bs0 ->
  calls g w (each xs) bs w' -> length xs < fuel ->
  exists a b h', lead fuel f inside v (Ptr q) l h w = Ret (a, b) h' w' /\ touched h h' ((qs ++ [q]) ++ ps) /\
    seg h' a (keep ((qs ++ [q]) ++ ps) (bs0 ++ bs)) (keep ((ys ++ [y]) ++ xs) (bs0 ++ bs)) Nil /\
    seg h' b (drop_kept ((qs ++ [q]) ++ ps) (bs0 ++ bs)) (drop_kept ((ys ++ [y]) ++ xs) (bs0 ++ bs)) Nil.
Proof.
  induction xs as [|x xs IH]; intros h f g l ps w bs w' fuel inside v qs q ys y bs0 St S P LN ND LB FB C F; (destruct fuel as [|fuel]; [cbn in F; lia|]); cbn [lead].
  - run. inversion C; subst. inversion S; subst. rewrite !app_nil_r.
    assert (LY : length (ys ++ [y]) = length bs0) by (rewrite app_length in *; cbn in *; lia).
    destruct inside.
    + destruct (keep_all _ _ _ LB FB) as (-> & ->). destruct (keep_all _ _ _ LY FB) as (-> & ->). exists v, Nil, h. split; [reflexivity|]. split; [auto|]. split; [exact P|constructor].
    + destruct (keep_none _ _ _ LB FB) as (-> & ->). destruct (keep_none _ _ _ LY FB) as (-> & ->). exists Nil, v, h. split; [reflexivity|]. split; [auto|]. split; [constructor|exact P].
  - pose proof S as S0. seg_cases S. run. inversion C as [|? ? r w1 ? rs ? G C']; subst. run'.
    assert (LY : length (ys ++ [y]) = length bs0) by (rewrite app_length in *; cbn in *; lia).
    destruct (Bool.eqb (truth r) inside) eqn:EB.
    + run. apply Bool.eqb_prop in EB. destruct (IH h f g d ps0 w1 rs w' fuel inside v (qs ++ [q]) p (ys ++ [y]) x (bs0 ++ [r])) as (a & b & h' & R & T & A & B); auto.
      { eapply seg_join; [exact P|]. econstructor; [exact E|constructor]. }
      { rewrite !app_length; cbn; lia. }
      { rewrite <- !app_assoc in *. exact ND. }
      { rewrite !app_length in *; cbn in *; lia. }
      { apply Forall_app. split; [exact FB|]. constructor; [exact EB|constructor]. }
      { cbn in F; lia. }
      exists a, b, h'. rewrite <- !app_assoc in *. cbn [app] in *. auto.
    + run. assert (EB' : truth r = negb inside) by (destruct (truth r), inside; cbn in *; congruence).
      assert (EQ : nth_error h q = Some (Obj true y (Ptr p))) by (eapply seg_last_cell; eassumption).
      assert (D1 : forall z, In z (qs ++ [q]) -> ~ In z (p :: ps0)).
      { intros z Z1 Z2. apply in_split in Z2. destruct Z2 as (l1 & l2 & Z2). rewrite Z2 in ND. rewrite app_assoc in ND. apply NoDup_remove_2 in ND. apply ND. apply in_or_app. left. apply in_or_app. left. exact Z1. }
      assert (D2 : ~ In q qs). { intros Z. rewrite <- app_assoc in ND. apply NoDup_remove_2 in ND. apply ND. apply in_or_app. left. exact Z. }
      assert (QP : q <> p) by (intros ->; apply (D1 p); [apply in_or_app; right; left; reflexivity|left; reflexivity]).
      assert (NQ : ~ In q ps0) by (intros Z; apply (D1 q); [apply in_or_app; right; left; reflexivity|right; exact Z]).
      assert (NP : ~ In p ps0) by (apply nodup_seg in S0; inversion S0; assumption).
      rewrite !keep_app, !drop_app by assumption. cbn [keep drop_kept]. rewrite EB'.
      destruct inside; cbn [negb].
      * destruct (keep_all _ _ _ LB FB) as (-> & ->). destruct (keep_all _ _ _ LY FB) as (-> & ->).
        destruct (scan_ok xs h f g d ps0 w1 rs w' fuel false q y (Ptr p) p x d) as (h' & di' & do' & R & T & N1 & S1 & N2 & S2); auto; [cbn in F; lia|].
        erewrite bind_ret by exact R. exists v, (Ptr p), h'. split; [reflexivity|]. split.
        { eapply touched_mono; [exact T|]. intros z [<-|[<-|Z]]; apply in_or_app; [left; apply in_or_app; right; left; reflexivity|right; left; reflexivity|right; right; exact Z]. }
        split; [|cbn; econstructor; eassumption]. eapply seg_join; [|exact S1]. eapply redirect; try eassumption.
        intros z Z [<-|Z2]; [contradiction|]. apply (D1 z); [apply in_or_app; left; exact Z|exact Z2].
      * destruct (keep_none _ _ _ LB FB) as (-> & ->). destruct (keep_none _ _ _ LY FB) as (-> & ->).
        destruct (scan_ok xs h f g d ps0 w1 rs w' fuel true p x d q y (Ptr p)) as (h' & di' & do' & R & T & N1 & S1 & N2 & S2); auto; [cbn in F; lia|].
        erewrite bind_ret by exact R. exists (Ptr p), v, h'. split; [reflexivity|]. split.
        { eapply touched_mono; [exact T|]. intros z [<-|[<-|Z]]; apply in_or_app; [right; left; reflexivity|left; apply in_or_app; right; left; reflexivity|right; right; exact Z]. }
        split; [cbn; econstructor; eassumption|]. eapply seg_join; [|exact S2]. eapply redirect; try eassumption.
        intros z Z [<-|[<-|Z2]]; [apply (D1 p); [apply in_or_app; left; exact Z|left; reflexivity]|contradiction|]. apply (D1 z); [apply in_or_app; left; exact Z|right; exact Z2].
Qed.
Lemma partition_x_ok : forall xs h (f : proc) (g : behaviour) v ps w bs w' fuel, independent f g -> seg h v ps xs Nil ->
  calls g w (each xs) bs w' -> length xs < fuel ->
  exists a b h', partition_x fuel f v h w = Ret (a, b) h' w' /\ touched h h' ps /\
    seg h' a (keep ps bs) (keep xs bs) Nil /\ seg h' b (drop_kept ps bs) (drop_kept xs bs) Nil.
Proof.
  intros [|x xs] h f g v ps w bs w' fuel St S C F; unfold partition_x; run.
  - inversion C; subst. inversion S; subst. exists Nil, Nil, h. split; [reflexivity|]. split; [auto|]. split; constructor.
  - pose proof S as S0. seg_cases S. run. inversion C as [|? ? r w1 ? rs ? G C']; subst. run'. run.
    destruct (lead_ok xs h f g d ps0 w1 rs w' fuel (truth r) (Ptr p) [] p [] x [r]) as (a & b & h' & R & T & A & B); auto.
    { econstructor; [exact E|constructor]. }
    { apply nodup_seg in S0. exact S0. }
    { cbn in F; lia. }
    exists a, b, h'. auto.
Qed.

(** *** take-while!, span!, break!, split-at! *)
Lemma cut_list_ok : forall xs h (f : proc) (g : behaviour) l ps w o w' fuel v qs q ys y, independent f g -> seg h l ps xs Nil ->
  seg h v (qs ++ [q]) (ys ++ [y]) l -> length qs = length ys -> NoDup ((qs ++ [q]) ++ ps) ->
  search (opposite g) w (each xs) o w' -> length xs < fuel ->
  exists b h', cut_list fuel f (Ptr q) l h w = Ret b h' w' /\ cut fuel f (Ptr q) l h w = Ret b h' w' /\ touched h h' ((qs ++ [q]) ++ ps) /\
    seg h' v ((qs ++ [q]) ++ firstn (place o xs) ps) ((ys ++ [y]) ++ firstn (place o xs) xs) Nil /\
    seg h' b (skipn (place o xs) ps) (skipn (place o xs) xs) Nil.
Proof.
  induction xs as [|x xs IH]; intros h f g l ps w o w' fuel v qs q ys y St S P LN ND C F; (destruct fuel as [|fuel]; [cbn in F; lia|]); cbn [cut_list cut].
  - run. inversion C; subst. inversion S; subst. cbn [place length firstn skipn]. rewrite !app_nil_r. exists Nil, h. split; [reflexivity|]. split; [reflexivity|]. split; [auto|]. split; [exact P|constructor].
  - pose proof S as S0. seg_cases S. run. inversion C; subst;
    match goal with H : opposite _ _ _ = Some _ |- _ => apply opposite_inv in H; destruct H as (? & ? & ?) end; run';
    match goal with H : truth ?r = negb (truth ?x), H' : truth ?r = _ |- _ => rewrite H' in H; destruct (truth x); try discriminate H end.
    + assert (EQ : nth_error h q = Some (Obj true y (Ptr p))) by (eapply seg_last_cell; eassumption).
      destruct (write_run h q y (Ptr p) Nil w' EQ) as (h' & R & N & T). erewrite !bind_ret by exact R. exists (Ptr p), h'. cbn [place firstn skipn]. rewrite !app_nil_r. split; [reflexivity|]. split; [reflexivity|]. split.
      { eapply touched_mono; [exact T|]. intros z [<-|[]]. apply in_or_app. left. apply in_or_app. right. left. reflexivity. }
      split.
      * eapply redirect; try eassumption. intros z Z [<-|[]]. rewrite <- app_assoc in ND. apply NoDup_remove_2 in ND. apply ND. apply in_or_app. left. exact Z.
      * eapply seg_touched; [exact S0|exact T|]. intros z Z [<-|[]]. rewrite <- app_assoc in ND. apply NoDup_remove_2 in ND. apply ND. apply in_or_app. right. exact Z.
    + run. destruct (IH h f g d ps0 w1 (Some (n, a)) w' fuel v (qs ++ [q]) p (ys ++ [y]) x) as (b & h' & R & R' & T & A & B); auto.
      { eapply seg_join; [exact P|]. econstructor; [exact E|constructor]. }
      { rewrite !app_length; cbn; lia. }
      { rewrite <- !app_assoc in *. exact ND. }
      { cbn in F; lia. }
      exists b, h'. rewrite <- !app_assoc in *. cbn [app place firstn skipn] in *. auto.
    + run. destruct (IH h f g d ps0 w1 None w' fuel v (qs ++ [q]) p (ys ++ [y]) x) as (b & h' & R & R' & T & A & B); auto.
      { eapply seg_join; [exact P|]. econstructor; [exact E|constructor]. }
      { rewrite !app_length; cbn; lia. }
      { rewrite <- !app_assoc in *. exact ND. }
      { cbn in F; lia. }
      exists b, h'. rewrite <- !app_assoc in *. cbn [app place length firstn skipn] in *. auto.
Qed.
Lemma span_x_ok : forall xs h (f : proc) (g : behaviour) v ps w o w' fuel, independent f g -> seg h v ps xs Nil ->
  search (opposite g) w (each xs) o w' -> length xs < fuel ->
  exists a b h', span_x fuel f v h w = Ret (a, b) h' w' /\ take_while_x fuel f v h w = Ret a h' w' /\ touched h h' ps /\
    seg h' a (firstn (place o xs) ps) (firstn (place o xs) xs) Nil /\ seg h' b (skipn (place o xs) ps) (skipn (place o xs) xs) Nil.
Proof.
  intros [|x xs] h f g v ps w o w' fuel St S C F; unfold span_x, take_while_x; run.
  - inversion C; subst. inversion S; subst. exists Nil, Nil, h. split; [reflexivity|]. split; [reflexivity|]. split; [auto|]. split; constructor.
  - pose proof S as S0. seg_cases S. run. inversion C; subst;
    match goal with H : opposite _ _ _ = Some _ |- _ => apply opposite_inv in H; destruct H as (? & ? & ?) end; run';
    match goal with H : truth ?r = negb (truth ?x), H' : truth ?r = _ |- _ => rewrite H' in H; destruct (truth x); try discriminate H end.
    + exists Nil, (Ptr p), h. split; [reflexivity|]. split; [reflexivity|]. split; [auto|]. split; [constructor|exact S0].
    + run. destruct (cut_list_ok xs h f g d ps0 w1 (Some (n, a)) w' fuel (Ptr p) [] p [] x) as (b & h' & R & R' & T & A & B); auto.
      { econstructor; [exact E|constructor]. }
      { apply nodup_seg in S0. exact S0. }
      { cbn in F; lia. }
      erewrite bind_ret by exact R. run. erewrite bind_ret by exact R'. exists (Ptr p), b, h'. auto.
    + run. destruct (cut_list_ok xs h f g d ps0 w1 None w' fuel (Ptr p) [] p [] x) as (b & h' & R & R' & T & A & B); auto.
      { econstructor; [exact E|constructor]. }
      { apply nodup_seg in S0. exact S0. }
      { cbn in F; lia. }
      erewrite bind_ret by exact R. run. erewrite bind_ret by exact R'. exists (Ptr p), b, h'. auto.
Qed.
Lemma break_x_ok : forall xs h (f : proc) (g : behaviour) v ps w o w' fuel, independent f g -> seg h v ps xs Nil ->
  search g w (each xs) o w' -> length xs < fuel ->
  exists a b h', break_x fuel f v h w = Ret (a, b) h' w' /\ touched h h' ps /\
    seg h' a (firstn (place o xs) ps) (firstn (place o xs) xs) Nil /\ seg h' b (skipn (place o xs) ps) (skipn (place o xs) xs) Nil.
Proof.
  intros xs h f g v ps w o w' fuel St SG C F. destruct (search_twice _ _ _ _ _ C) as (o' & C' & E). assert (EP : place o' xs = place o xs).
  { destruct o as [[? ?]|], o' as [[? ?]|]; cbn in *; congruence. }
  rewrite <- EP. unfold break_x. destruct (span_x_ok xs h (complement f) (opposite g) v ps w o' w' fuel) as (a & b & h' & R & _ & Q); auto using complement_independent. exists a, b, h'. auto.
Qed.

(** *** map! of one list *)
Lemma write_car_run : forall h p a d v w, nth_error h p = Some (Obj true a d) ->
  exists h', write_car (Ptr p) v h w = Ret tt h' w /\ nth_error h' p = Some (Obj true v d) /\ recarred h h' [p].
Proof.
  intros h p a d v w E. unfold write_car, set_car. rewrite E. cbn. eexists. split; [reflexivity|]. split; [rewrite put_nth, Nat.eqb_refl, E; reflexivity|]. split.
  - clear. revert h. induction p as [|p IH]; intros [|o h]; cbn; try reflexivity. f_equal. apply IH.
  - intros q o Q. rewrite put_nth. destruct (Nat.eqb_spec p q) as [->|N].
    + rewrite Q. eexists. split; [reflexivity|]. rewrite E in Q. injection Q as <-. cbn. repeat split. intros N. destruct N. left. reflexivity.
    + exists o. auto.
Qed.
Lemma recarred_refl : forall h ps, recarred h h ps.
Proof. intros h ps. split; [reflexivity|]. intros q o E. exists o. auto. Qed.
Lemma recarred_mono : forall h h' ps qs, recarred h h' ps -> incl ps qs -> recarred h h' qs.
Proof. intros h h' ps qs (L & T) I. split; [exact L|]. intros q o E. destruct (T q o E) as (o' & A & B & C & D). exists o'. repeat split; auto. Qed.
Lemma recarred_trans : forall a b c ps, recarred a b ps -> recarred b c ps -> recarred a c ps.
Proof.
  intros a b c ps (L1 & T1) (L2 & T2). split; [congruence|]. intros q o E. destruct (T1 q o E) as (o1 & A & B & C & D). destruct (T2 q o1 A) as (o2 & A2 & B2 & C2 & D2).
  exists o2. repeat split; auto; try congruence. intros N. rewrite D2, D by exact N. reflexivity.
Qed.
Lemma recarred_cell : forall h h' qs p a d, recarred h h' qs -> nth_error h p = Some (Obj true a d) -> ~ In p qs -> nth_error h' p = Some (Obj true a d).
Proof. intros h h' qs p a d (_ & T) E N. destruct (T p _ E) as ([b f s] & A & B & C & D). cbn in *. rewrite (D N) in A. congruence. Qed.
Lemma seg_recarred : forall h h' v ps xs z qs, seg h v ps xs z -> recarred h h' qs -> (forall p, In p ps -> ~ In p qs) -> seg h' v ps xs z.
Proof. intros h h' v ps xs z qs S T. induction S; intros D; [constructor|]. econstructor; [eapply recarred_cell; [exact T|eassumption|]; apply D; left; reflexivity|]. apply IHS. intros q Q. apply D. right. exact Q. Qed.
Lemma map_x1_ok : forall xs h (f : proc) (g : behaviour) v ps w rs w' fuel, independent f g -> seg h v ps xs Nil ->
  calls g w (each xs) rs w' -> length xs < fuel ->
  exists h', map_x fuel f v [] h w = Ret v h' w' /\ recarred h h' ps /\ seg h' v ps rs Nil.
Proof.
  intros xs h f g v ps w rs w' fuel St S C F. unfold map_x. cbn [nullp].
  match goal with |- context [pair_for_each1 fuel ?k v] => set (cb := k) end.
  assert (L : exists h', pair_for_each1 fuel cb v h w = Ret tt h' w' /\ recarred h h' ps /\ seg h' v ps rs Nil).
  { revert h v ps w rs w' fuel S C F. induction xs as [|x xs IH]; intros h v ps w rs w' fuel S C F; (destruct fuel as [|fuel]; [cbn in F; lia|]); cbn [pair_for_each1].
    - run. inversion C; subst. inversion S; subst. exists h. split; [reflexivity|]. split; [apply recarred_refl|constructor].
    - pose proof S as S0. seg_cases S. fwd. run. inversion C as [|? ? r w1 ? rs1 ? G C']; subst. destruct (write_car_run h p x d r w1 E) as (h1 & R1 & N1 & T1).
      assert (CB : cb [Ptr p] h w = Ret Nil h1 w1). { unfold cb. run. run'. erewrite bind_ret by exact R1. reflexivity. }
      erewrite bind_ret by exact CB. destruct (IH h1 d ps0 w1 rs1 w' fuel) as (h' & R & T & Q).
      { eapply seg_recarred; [eassumption|exact T1|]. intros q Q [<-|[]]. contradiction. }
      { exact C'. }
      { cbn in F; lia. }
      exists h'. split; [exact R|]. split.
      + eapply recarred_trans; eapply recarred_mono; [exact T1| |exact T|]; [intros q [<-|[]]; left; reflexivity|apply incl_tl; apply incl_refl].
      + econstructor; [|exact Q]. eapply recarred_cell; eassumption. }
  destruct L as (h' & R & T & Q). erewrite bind_ret by exact R. exists h'. auto.
Qed.
End Writes.
