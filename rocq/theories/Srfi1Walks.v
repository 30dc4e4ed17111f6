(** Proofs about the procedures of SRFI 1: searching, unfolding, appending, deleting. *)
From Coq Require Import ZArith List Bool PeanoNat Lia.
From Verif Require Import Lists ListPredicates ListsProofs Srfi1 Srfi1Spec Srfi1Proofs.
Import ListNotations.

#[local] Hint Resolve ext_refl ext_trans ext_app pair_seg : core.
Ltac run1 := first
  [ erewrite bind_ret by (eapply null_seg; eassumption)
  | erewrite bind_ret by (eapply head_seg; eassumption)
  | erewrite bind_ret by (eapply tail_seg; eassumption)
  | erewrite bind_ret by (eapply pairq_seg; eassumption)
  | erewrite bind_ret by (eapply pair_run)
  | erewrite bind_ret by (eapply test_run; [eassumption|eauto; fail|eassumption])
  | erewrite bind_ret by (eapply steady_run; [eassumption|eauto; fail|eassumption]) ].
Ltac run := repeat (run1; cbn [nullp negb]).
Ltac seg_cases S := let E := fresh "E" in let T := fresh "T" in
  pose proof S as T; inversion T as [|? ? ? ? ? ? E ?]; subst; clear T.

Section Walks.
Context {W : Type}.
Implicit Types (h : heap) (w : W) (v : val).
Notation M := (M (W := W)). Notation proc := (proc (W := W)). Notation behaviour := (behaviour (W := W)).

Lemma truth_bool : forall b, truth (bool_val b) = b.
Proof. intros [|]; reflexivity. Qed.
(** *** procedures made of others *)
Lemma complement_steady : forall h (f : proc) (g : behaviour), steady h f g -> steady h (complement f) (opposite g).
Proof.
  intros h f g St h' args w X. unfold complement, opposite, test. unfold mbind. rewrite (St _ _ _ X). destruct (g args w) as [[r w']|]; reflexivity.
Qed.
Lemma calls_opposite : forall (g : behaviour) w l bs w', calls g w l bs w' -> calls (opposite g) w l (map (fun b => bool_val (negb (truth b))) bs) w'.
Proof. intros g w l bs w' C. induction C; cbn [map]; econstructor; [|eassumption]. unfold opposite. rewrite H. reflexivity. Qed.
Lemma keep_opposite : forall A (xs : list A) bs, keep xs (map (fun b => bool_val (negb (truth b))) bs) = drop_kept xs bs.
Proof. intros A. induction xs as [|x xs IH]; intros [|b bs]; cbn; try reflexivity. rewrite truth_bool. destruct (truth b); cbn; rewrite IH; reflexivity. Qed.
Lemma remove_ok : forall xs h (f : proc) (g : behaviour) v ps w bs w' fuel, steady h f g -> seg h v ps xs Nil ->
  calls g w (each xs) bs w' -> length xs < fuel -> yields (remove fuel f v h w) h w' (fun r h' => plist h' r (drop_kept xs bs)).
Proof.
  intros xs h f g v ps w bs w' fuel St SG C F. rewrite <- keep_opposite. unfold remove. eapply filter_ok; [apply complement_steady; exact St|auto|exact SG|apply calls_opposite; exact C|exact F].
Qed.
Definition differs_as (g : behaviour) (x : val) : behaviour := fun args w => match args with [y] => opposite g [x; y] w | _ => None end.
Lemma differs_steady : forall h (f : proc) (g : behaviour) x, steady h f g -> steady h (differs f x) (differs_as g x).
Proof.
  intros h f g x St h' args w X. unfold differs, differs_as. destruct args as [|y [|? ?]]; try reflexivity. unfold opposite, test, mbind. rewrite (St _ _ _ X). destruct (g [x; y] w) as [[r w']|]; reflexivity.
Qed.
Lemma calls_differs : forall (g : behaviour) x ys w bs w', calls g w (against x ys) bs w' -> calls (differs_as g x) w (each ys) (map (fun b => bool_val (negb (truth b))) bs) w'.
Proof.
  intros g x ys. induction ys as [|y ys IH]; intros w bs w' C; inversion C as [|? ? r w1 ? rs ? G C']; subst; cbn [map]; econstructor; eauto. unfold differs_as, opposite. rewrite G. reflexivity.
Qed.
Lemma delete_ok : forall xs h (f : proc) (g : behaviour) x v ps w bs w' fuel, steady h f g -> seg h v ps xs Nil ->
  calls g w (against x xs) bs w' -> length xs < fuel -> yields (delete fuel x v f h w) h w' (fun r h' => plist h' r (drop_kept xs bs)).
Proof.
  intros xs h f g x v ps w bs w' fuel St SG C F. rewrite <- keep_opposite. unfold delete. eapply filter_ok; [apply differs_steady; exact St|auto|exact SG|apply calls_differs; exact C|exact F].
Qed.
Lemma drop_kept_length : forall A (xs : list A) bs, length (drop_kept xs bs) <= length xs.
Proof. intros A. induction xs as [|x xs IH]; intros [|b bs]; cbn; try lia. specialize (IH bs). destruct (truth b); cbn; lia. Qed.
Lemma delete_duplicates_ok : forall n xs h (f : proc) (g : behaviour) v ps w ys w' fuel, steady h f g -> seg h v ps xs Nil -> length xs <= n ->
  dedup g w xs ys w' -> length xs < fuel -> yields (delete_duplicates fuel v f h w) h w' (fun r h' => plist h' r ys).
Proof.
  induction n as [|n IH]; intros xs h f g v ps w ys w' fuel St SG L C F; (destruct fuel as [|fuel]; [lia|]); unfold delete_duplicates; cbn [delete_duplicates_with]; unfold yields; run.
  - destruct xs; [|cbn in L; lia]. inversion C; subst. exists Nil, h. split; [reflexivity|]. split; [auto|]. exists []. constructor.
  - destruct xs as [|x xs]; cbn [nullp].
    { inversion C; subst. exists Nil, h. split; [reflexivity|]. split; [auto|]. exists []. constructor. }
    seg_cases SG. run. inversion C as [|? ? ? bs w1 ys1 ? CK DD]; subst. cbn in L, F.
    destruct (delete_ok xs h f g x d ps0 w bs w1 fuel St) as (r & h1 & R & X & (qs & Q)); [assumption|exact CK|lia|].
    erewrite bind_ret by exact R. pose proof (drop_kept_length _ xs bs) as DL.
    destruct (IH (drop_kept xs bs) h1 f g r qs w1 ys1 w' fuel) as (t & h2 & R2 & X2 & (qs2 & Q2)); [eapply steady_ext; eassumption|exact Q|lia|exact DD|lia|].
    unfold delete_duplicates in R2. erewrite bind_ret by exact R2. destruct (veq d t) eqn:V.
    + apply veq_iff in V. subst t. exists (Ptr p), h2. split; [reflexivity|]. split; [eauto|]. exists (p :: qs2). econstructor; [|exact Q2]. eapply ext_nth; [exact (ext_trans _ _ _ X X2)|exact E].
    + rewrite pair_run. eexists _, _. split; [reflexivity|]. split; [eauto|]. eexists. eauto.
Qed.
Definition key_differs_as (h0 : heap) (g : behaviour) (key : val) : behaviour := fun args w =>
  match args with [Ptr q] => match nth_error h0 q with Some (Obj true k _) => opposite g [key; k] w | _ => None end | _ => None end.
(** alist-delete: the entries are pairs *)
Lemma filter_keyed_ok : forall es ks h (f : proc) (g : behaviour) key v ps w bs w' fuel h0, steady h0 f g -> ext h0 h -> seg h v ps es Nil -> Forall2 (keyed h0) es ks ->
  calls g w (against key ks) bs w' -> length es < fuel ->
  yields (filter fuel (other_key f key) v h w) h w' (fun r h' => plist h' r (drop_kept es bs)).
Proof.
  induction es as [|x xs IH]; intros ks h f g key v ps w bs w' fuel h0 St X S K C F; (destruct fuel as [|fuel]; [cbn in F; lia|]); cbn [filter]; inversion K as [|? k ? ks' (q & qd & -> & EQ) K']; subst; unfold yields.
  - run. inversion C; subst. exists v, h. split; [reflexivity|]. split; [auto|]. exists ps. exact S.
  - seg_cases S. run. inversion C as [|? ? r w1 ? rs ? G C']; subst. cbn [drop_kept].
    assert (T : test (other_key f key) [Ptr q] h w = Ret (negb (truth r)) h w1).
    { unfold test, other_key. rewrite bind_assoc. erewrite bind_ret by (eapply head_seg; eapply ext_nth; eassumption). rewrite bind_assoc. erewrite bind_ret by (eapply test_run; eassumption).
      unfold mbind, ret. cbn. rewrite truth_bool. reflexivity. }
    erewrite bind_ret by exact T.
    destruct (IH ks' h f g key d ps0 w1 rs w' fuel h0 St X) as (r' & h' & R & X' & P'); [assumption|assumption|exact C'|cbn in F; lia|].
    destruct (truth r); cbn [negb].
    + exists r', h'. auto.
    + erewrite bind_ret by exact R. destruct (veq d r') eqn:V.
      * apply veq_iff in V. subst r'. exists (Ptr p), h'. split; [reflexivity|]. split; [auto|]. destruct P' as (qs & Q). exists (p :: qs). econstructor; [|exact Q]. eapply ext_nth; eassumption.
      * destruct P' as (qs & Q). rewrite pair_run. eexists _, _. split; [reflexivity|]. split; [auto|]. eexists. eauto.
Qed.
Lemma alist_delete_ok : forall es ks h (f : proc) (g : behaviour) key v ps w bs w' fuel, steady h f g -> seg h v ps es Nil -> Forall2 (keyed h) es ks ->
  calls g w (against key ks) bs w' -> length es < fuel ->
  yields (alist_delete fuel key v f h w) h w' (fun r h' => plist h' r (drop_kept es bs)).
Proof. intros. unfold alist_delete. eapply filter_keyed_ok; eauto. Qed.

(** *** take-while, drop-while, span *)
Lemma place_cons : forall A n a (x : A) xs, place (Some (n, a)) xs <= length xs -> place (Some (S n, a)) (x :: xs) <= length (x :: xs).
Proof. intros. cbn in *. lia. Qed.
Lemma search_bound : forall (g : behaviour) w argss o w', search g w argss o w' -> place o argss <= length argss.
Proof. intros g w argss o w' C. induction C; cbn in *; lia. Qed.
Lemma opposite_inv : forall (g : behaviour) args w r w', opposite g args w = Some (r, w') -> exists r0, g args w = Some (r0, w') /\ truth r = negb (truth r0).
Proof. intros g args w r w' H. unfold opposite in H. destruct (g args w) as [[r0 w0]|]; inversion H; subst. exists r0. split; [reflexivity|]. apply truth_bool. Qed.
Ltac opp := match goal with H : opposite _ _ _ = Some _ |- _ => apply opposite_inv in H; destruct H as (? & ? & ?) end.
Ltac answer := match goal with H : truth ?r = negb (truth ?x), H' : truth ?r = _ |- _ => rewrite H' in H; destruct (truth x); try discriminate H end.
Lemma take_while_ok : forall xs h (f : proc) (g : behaviour) v ps w o w' fuel, steady h f g -> seg h v ps xs Nil ->
  search (opposite g) w (each xs) o w' -> length xs < fuel -> yields (take_while fuel f v h w) h w' (fun r h' => plist h' r (firstn (place o xs) xs)).
Proof.
  induction xs as [|x xs IH]; intros h f g v ps w o w' fuel St SG C F; (destruct fuel as [|fuel]; [cbn in F; lia|]); cbn [take_while]; unfold yields.
  - run. inversion C; subst. exists Nil, h. split; [reflexivity|]. split; [auto|]. exists []. constructor.
  - seg_cases SG. run. inversion C; subst; opp; run; answer.
    + exists Nil, h. split; [reflexivity|]. split; [auto|]. exists []. constructor.
    + run. match goal with S' : search _ w1 _ _ _, G' : seg _ d _ _ _ |- _ => destruct (IH _ _ _ _ _ _ _ _ fuel St G' S') as (t & h' & R & X & (qs & Q)); [cbn in F; lia|] end.
      erewrite bind_ret by exact R. rewrite pair_run. eexists _, _. split; [reflexivity|]. split; [auto|]. cbn. eexists. eauto.
    + run. match goal with S' : search _ w1 _ _ _, G' : seg _ d _ _ _ |- _ => destruct (IH _ _ _ _ _ _ _ _ fuel St G' S') as (t & h' & R & X & (qs & Q)); [cbn in F; lia|] end.
      erewrite bind_ret by exact R. rewrite pair_run. eexists _, _. split; [reflexivity|]. split; [auto|]. cbn. eexists. eauto.
Qed.
Lemma span_ok : forall xs h (f : proc) (g : behaviour) v ps w o w' fuel, steady h f g -> seg h v ps xs Nil ->
  search (opposite g) w (each xs) o w' -> length xs < fuel ->
  yields (span fuel f v h w) h w' (fun r h' => plist h' (fst r) (firstn (place o xs) xs) /\ seg h (snd r) (skipn (place o xs) ps) (skipn (place o xs) xs) Nil).
Proof.
  induction xs as [|x xs IH]; intros h f g v ps w o w' fuel St SG C F; (destruct fuel as [|fuel]; [cbn in F; lia|]); cbn [span]; unfold yields.
  - run. inversion C; subst. inversion SG; subst. exists (Nil, Nil), h. split; [reflexivity|]. split; [auto|]. split; [exists []; constructor|constructor].
  - pose proof SG as SG0. seg_cases SG. run. inversion C; subst; opp; run; answer.
    + exists (Nil, Ptr p), h. split; [reflexivity|]. split; [auto|]. split; [exists []; constructor|exact SG0].
    + run. match goal with S' : search _ w1 _ _ _, G' : seg _ d _ _ _ |- _ => destruct (IH _ _ _ _ _ _ _ _ fuel St G' S') as ([t b] & h' & R & X & (qs & Q) & B); [cbn in F; lia|] end.
      erewrite bind_ret by exact R. cbn beta iota. run. eexists (_, b), _. split; [reflexivity|]. split; [auto|]. cbn in *. split; [eexists; eauto|exact B].
    + run. match goal with S' : search _ w1 _ _ _, G' : seg _ d _ _ _ |- _ => destruct (IH _ _ _ _ _ _ _ _ fuel St G' S') as ([t b] & h' & R & X & (qs & Q) & B); [cbn in F; lia|] end.
      erewrite bind_ret by exact R. cbn beta iota. run. eexists (_, b), _. split; [reflexivity|]. split; [auto|]. cbn in *. split; [eexists; eauto|]. rewrite skipn_all in *. exact B.
Qed.
Lemma drop_while_ok : forall xs h (f : proc) (g : behaviour) v ps w o w' fuel, steady h f g -> seg h v ps xs Nil ->
  search (opposite g) w (each xs) o w' -> length xs < fuel ->
  exists r, drop_while fuel f v h w = Ret r h w' /\ seg h r (skipn (place o xs) ps) (skipn (place o xs) xs) Nil.
Proof.
  induction xs as [|x xs IH]; intros h f g v ps w o w' fuel St SG C F; (destruct fuel as [|fuel]; [cbn in F; lia|]); cbn [drop_while].
  - run. inversion C; subst. inversion SG; subst. exists Nil. split; [reflexivity|constructor].
  - pose proof SG as SG0. seg_cases SG. run. inversion C; subst; opp; run; answer.
    + exists (Ptr p). split; [reflexivity|exact SG0].
    + run. match goal with S' : search _ w1 _ _ _, G' : seg _ d _ _ _ |- _ => destruct (IH _ _ _ _ _ _ _ _ fuel St G' S') as (t & R & B); [cbn in F; lia|] end.
      exists t. split; [exact R|exact B].
    + run. match goal with S' : search _ w1 _ _ _, G' : seg _ d _ _ _ |- _ => destruct (IH _ _ _ _ _ _ _ _ fuel St G' S') as (t & R & B); [cbn in F; lia|] end.
      exists t. split; [exact R|exact B].
Qed.
Lemma opposite_twice : forall (g : behaviour) args w r w', g args w = Some (r, w') -> opposite (opposite g) args w = Some (bool_val (truth r), w').
Proof. intros g args w r w' H. unfold opposite. rewrite H, truth_bool, negb_involutive. reflexivity. Qed.
Lemma search_twice : forall (g : behaviour) w l o w', search g w l o w' -> exists o', search (opposite (opposite g)) w l o' w' /\ option_map fst o' = option_map fst o.
Proof.
  intros g w l o w' C. induction C as [| | |].
  - exists None. split; [constructor|reflexivity].
  - eexists. split; [eapply search_here; [eapply opposite_twice; eassumption|rewrite truth_bool; assumption]|reflexivity].
  - destruct IHC as ([[m b]|] & C' & E); [|discriminate]. cbn in E. injection E as ->. eexists. split; [eapply search_there; [eapply opposite_twice; eassumption|rewrite truth_bool; assumption|exact C']|reflexivity].
  - destruct IHC as ([[m b]|] & C' & E); [discriminate|]. eexists. split; [eapply search_nowhere; [eapply opposite_twice; eassumption|rewrite truth_bool; assumption|exact C']|reflexivity].
Qed.
Lemma break_ok : forall xs h (f : proc) (g : behaviour) v ps w o w' fuel, steady h f g -> seg h v ps xs Nil ->
  search g w (each xs) o w' -> length xs < fuel ->
  yields (break fuel f v h w) h w' (fun r h' => plist h' (fst r) (firstn (place o xs) xs) /\ seg h (snd r) (skipn (place o xs) ps) (skipn (place o xs) xs) Nil).
Proof.
  intros xs h f g v ps w o w' fuel St SG C F. destruct (search_twice _ _ _ _ _ C) as (o' & C' & E). assert (EP : place o' xs = place o xs).
  { destruct o as [[? ?]|], o' as [[? ?]|]; cbn in *; congruence. }
  rewrite <- EP. unfold break. eapply span_ok; [apply complement_steady; exact St|exact SG|exact C'|exact F].
Qed.
(** *** member, assoc *)
Lemma member_ok : forall xs h (f : proc) (g : behaviour) x v ps w o w' fuel, steady h f g -> seg h v ps xs Nil ->
  search g w (against x xs) o w' -> length xs < fuel ->
  exists r, member fuel x v f h w = Ret r h w' /\ match o with None => r = v_false | Some (n, _) => n < length xs /\ seg h r (skipn n ps) (skipn n xs) Nil end.
Proof.
  induction xs as [|y xs IH]; intros h f g x v ps w o w' fuel St SG C F; (destruct fuel as [|fuel]; [cbn in F; lia|]); cbn [member].
  - run. inversion C; subst. eexists. split; reflexivity.
  - pose proof SG as SG0. seg_cases SG. run. inversion C; subst; run; match goal with H : truth _ = _ |- _ => rewrite H end.
    + eexists. split; [reflexivity|]. split; [cbn; lia|exact SG0].
    + run. destruct (IH h f g x d ps0 w1 (Some (n, a)) w' fuel) as (r' & R & N & P); try assumption; [cbn in F; lia|].
      exists r'. split; [exact R|]. split; [cbn; lia|exact P].
    + run. destruct (IH h f g x d ps0 w1 None w' fuel) as (r' & R & P); try assumption; [cbn in F; lia|]. exists r'. auto.
Qed.
Lemma assoc_ok : forall es ks h (f : proc) (g : behaviour) key v ps w o w' fuel, steady h f g -> seg h v ps es Nil -> Forall2 (keyed h) es ks ->
  search g w (against key ks) o w' -> length es < fuel ->
  assoc fuel key v f h w = Ret (match o with None => v_false | Some (n, _) => nth n es Nil end) h w'.
Proof.
  induction es as [|e es IH]; intros ks h f g key v ps w o w' fuel St SG K C F; (destruct fuel as [|fuel]; [cbn in F; lia|]); cbn [assoc]; inversion K as [|? k ? ks' (q & qd & -> & EQ) K']; subst.
  - inversion SG; subst. inversion C; subst. reflexivity.
  - seg_cases SG. cbn [is_null]. run. inversion C; subst; run; match goal with H : truth _ = _ |- _ => rewrite H end.
    + cbn. eapply head_seg. eassumption.
    + run. match goal with S' : search _ w1 _ _ _, G' : seg _ d _ _ _ |- _ => rewrite (IH _ _ _ _ _ _ _ _ _ _ fuel St G' K' S') by (cbn in F; lia); reflexivity end.
    + run. match goal with S' : search _ w1 _ _ _, G' : seg _ d _ _ _ |- _ => rewrite (IH _ _ _ _ _ _ _ _ _ _ fuel St G' K' S') by (cbn in F; lia); reflexivity end.
Qed.
(** *** for-each, pair-for-each *)
Lemma for_each1_ok : forall xs h (f : proc) (g : behaviour) v ps w rs w' fuel, steady h f g -> seg h v ps xs Nil ->
  calls g w (each xs) rs w' -> length xs < fuel -> for_each1 fuel f v h w = Ret tt h w'.
Proof.
  induction xs as [|x xs IH]; intros h f g v ps w rs w' fuel St SG C F; (destruct fuel as [|fuel]; [cbn in F; lia|]); cbn [for_each1].
  - run. inversion C; subst. reflexivity.
  - seg_cases SG. run. inversion C; subst. run. eapply IH; try eassumption. cbn in F; lia.
Qed.
Lemma pair_for_each1_ok : forall xs h (f : proc) (g : behaviour) v ps w rs w' fuel, steady h f g -> seg h v ps xs Nil ->
  calls g w (map (fun p => [Ptr p]) ps) rs w' -> length xs < fuel -> pair_for_each1 fuel f v h w = Ret tt h w'.
Proof.
  induction xs as [|x xs IH]; intros h f g v ps w rs w' fuel St SG C F; (destruct fuel as [|fuel]; [cbn in F; lia|]); cbn [pair_for_each1].
  - run. inversion SG; subst. inversion C; subst. reflexivity.
  - seg_cases SG. run. inversion C; subst. run. eapply IH; try eassumption. cbn in F; lia.
Qed.
(** *** unfold *)
Lemma unfold_ok : forall (gp gf gg ge : behaviour) w s xs z w', unfolds gp gf gg ge w s xs z w' ->
  forall h (p f g e : proc) fuel, steady h p gp -> steady h f gf -> steady h g gg -> steady h e ge -> length xs < fuel ->
  yields (unfold fuel p f g e s h w) h w' (fun r h' => exists ps, seg h' r ps xs z).
Proof.
  intros gp gf gg ge w s xs z w' U. induction U; intros h p f g0 e fuel SP SF SG0 SE F; (destruct fuel as [|fuel]; [cbn in F; lia|]); cbn [unfold]; unfold yields; run; rewrite H0.
  - exists z, h. split; [eapply steady_run; eauto|]. split; [auto|]. exists []. constructor.
  - run. destruct (IHU h p f g0 e fuel) as (t & h' & R & X & (ps & Q)); try assumption; [cbn in F; lia|]. erewrite bind_ret by exact R.
    erewrite bind_ret by (eapply steady_run; eauto). rewrite pair_run. eexists _, _. split; [reflexivity|]. split; [auto|]. exists (length h' :: ps). econstructor.
    + rewrite nth_error_app2 by lia. rewrite Nat.sub_diag. reflexivity.
    + eapply seg_ext; [|exact Q]. auto.
Qed.
Lemma unfold_right_ok : forall (gp gf gg : behaviour) w s xs w', unfolds_right gp gf gg w s xs w' ->
  forall h0 h (p f g : proc) fuel t ps ys z, steady h0 p gp -> steady h0 f gf -> steady h0 g gg -> ext h0 h -> seg h t ps ys z -> length xs < fuel ->
  yields (unfold_right fuel p f g s t h w) h w' (fun r h' => exists ps, seg h' r ps (rev xs ++ ys) z).
Proof.
  intros gp gf gg w s xs w' U. induction U; intros h0 h p f g0 fuel t ps ys z SP SF SG0 X SQ F; (destruct fuel as [|fuel]; [cbn in F; lia|]); cbn [unfold_right]; unfold yields; run; rewrite H0.
  - exists t, h. split; [reflexivity|]. split; [auto|]. exists ps. exact SQ.
  - run. destruct (IHU h0 (h ++ [Obj true a t]) p f g0 fuel (Ptr (length h)) (length h :: ps) (a :: ys) z) as (r' & h' & R & X' & (qs & Q)); try assumption; [auto| |cbn in F; lia|].
    + econstructor; [rewrite nth_error_app2 by lia; rewrite Nat.sub_diag; reflexivity|]. eapply seg_ext; [|exact SQ]. auto.
    + exists r', h'. split; [exact R|]. split; [eapply ext_trans; [|exact X']; auto|]. exists qs. cbn [rev]. rewrite <- app_assoc. exact Q.
Qed.
Lemma list_tabulate_loop_ok : forall n i (num : nat -> val) h (f : proc) (g : behaviour) w rs w', steady h f g ->
  calls g w (each (rev (map num (seq i n)))) (rev rs) w' -> yields (list_tabulate_loop num n i f h w) h w' (fun r h' => plist h' r rs).
Proof.
  induction n as [|n IH]; intros i num h f g w rs w' St C; cbn [list_tabulate_loop]; unfold yields.
  - apply calls_length in C as L. rewrite rev_length in L. destruct rs; [|discriminate]. inversion C; subst. exists Nil, h. split; [reflexivity|]. split; [auto|]. exists []. constructor.
  - cbn [seq map rev] in C. unfold each in C. rewrite map_app in C. cbn [map] in C. apply calls_snoc in C. destruct C as (rs0 & r & w1 & RB & C0 & G0).
    assert (rs = r :: rev rs0) as ->. { rewrite <- (rev_involutive rs), RB, rev_app_distr. reflexivity. }
    rewrite <- (rev_involutive rs0) in C0. destruct (IH (S i) num h f g w (rev rs0) w1 St C0) as (t & h' & R & X & (qs & Q)). erewrite bind_ret by exact R.
    erewrite bind_ret by (eapply steady_run; eauto). rewrite pair_run. eexists _, _. split; [reflexivity|]. split; [auto|]. eexists. eauto.
Qed.
(** *** append-map *)
Lemma seg_len : forall h v ps xs, seg h v ps xs Nil -> length xs <= length h.
Proof.
  intros h v ps xs S. rewrite <- (seg_lengths _ _ _ _ _ S). assert (ND : NoDup ps) by (eapply seg_nodup; [exact S|exact I]). pose proof (seg_bound _ _ _ _ _ S) as B. rewrite Forall_forall in B.
  replace (length h) with (length (seq 0 (length h))) by apply seq_length. apply NoDup_incl_length; [exact ND|]. intros p P. apply in_seq. specialize (B p P). lia.
Qed.
Lemma append2_ok : forall h v ps xs y w, seg h v ps xs Nil -> yields (append2 v y h w) h w (fun r h' => exists qs, seg h' r qs xs y).
Proof.
  intros h v ps xs y w SG. destruct (append_spec h v ps xs Nil y SG I (S (length h))) as (r & h' & qs & R & X & Q & _); [apply seg_len in SG; lia|].
  exists r, h'. unfold append2. rewrite R. split; [reflexivity|]. split; [exact X|]. exists qs. exact Q.
Qed.
Lemma seg_join : forall h v ps xs m qs ys z, seg h v ps xs m -> seg h m qs ys z -> seg h v (ps ++ qs) (xs ++ ys) z.
Proof. intros h v ps xs m qs ys z A B. induction A; [exact B|]. cbn. econstructor; [eassumption|auto]. Qed.
Lemma append2_plist : forall h v xs t ys w, plist h v xs -> plist h t ys -> yields (append2 v t h w) h w (fun r h' => plist h' r (xs ++ ys)).
Proof.
  intros h v xs t ys w (ps & A) (qs & B). destruct (append2_ok h v ps xs t w A) as (r & h' & R & X & (rs & Q)). exists r, h'. split; [exact R|]. split; [exact X|].
  exists (rs ++ qs). eapply seg_join; [exact Q|]. eapply seg_ext; eassumption.
Qed.
Lemma append_map1_loop_ok : forall xs x h (f : proc) (g : behaviour) v ps w rs yss w' fuel, steady h f g -> seg h v ps xs Nil ->
  calls g w (each (x :: xs)) rs w' -> Forall2 (plist h) rs yss -> length xs < fuel ->
  yields (append_map1_loop fuel f x v h w) h w' (fun r h' => plist h' r (concat yss)).
Proof.
  induction xs as [|y xs IH]; intros x h f g v ps w rs yss w' fuel St SG C Y F; (destruct fuel as [|fuel]; [cbn in F; lia|]); cbn [append_map1_loop]; unfold yields;
  inversion C as [|? ? r w1 ? rs1 ? G C']; subst; run; inversion Y as [|? ys ? yss' Y1 Y2]; subst.
  - inversion C'; subst. inversion Y2; subst. exists r, h. cbn. rewrite app_nil_r. auto.
  - seg_cases SG. run. destruct (IH y h f g d ps0 w1 rs1 yss' w' fuel) as (t & h' & R & X & Q); try assumption; [cbn in F; lia|]. erewrite bind_ret by exact R.
    destruct (append2_plist h' r ys t (concat yss') w') as (t2 & h2 & R2 & X2 & Q2); [eapply plist_ext; eassumption|exact Q|]. exists t2, h2. split; [exact R2|]. split; [eauto|exact Q2].
Qed.
Lemma append_map1_ok : forall xs h (f : proc) (g : behaviour) v ps w rs yss w' fuel, steady h f g -> seg h v ps xs Nil ->
  calls g w (each xs) rs w' -> Forall2 (plist h) rs yss -> length xs < fuel ->
  yields (append_map fuel f v [] h w) h w' (fun r h' => plist h' r (concat yss)).
Proof.
  intros [|x xs] h f g v ps w rs yss w' fuel St SG C Y F; unfold append_map; cbn [nullp]; unfold yields; run.
  - inversion C; subst. inversion Y; subst. exists Nil, h. split; [reflexivity|]. split; [auto|]. exists []. constructor.
  - seg_cases SG. run. eapply append_map1_loop_ok; try eassumption. cbn in F; lia.
Qed.
Lemma append_mapn_loop_ok : forall n xss row h (f : proc) (g : behaviour) vs w rs yss w' fuel, steady h f g -> Forall2 (plist h) vs xss -> xss <> [] ->
  calls g w (row :: rows xss) rs w' -> Forall2 (plist h) rs yss -> shortest xss = n -> n < fuel ->
  yields (append_mapn_loop fuel f row vs h w) h w' (fun r h' => plist h' r (concat yss)).
Proof.
  induction n as [|n IH]; intros xss row h f g vs w rs yss w' fuel St P N C Y Q F; (destruct fuel as [|fuel]; [lia|]); cbn [append_mapn_loop]; unfold yields;
  inversion C as [|? ? r w1 ? rs1 ? G C']; subst; run; inversion Y as [|? ys ? yss' Y1 Y2]; subst;
  destruct (cars_cdrs_ok h vs xss w1 P) as (cs & ds & R & B); erewrite bind_ret by exact R; destruct (some_empty xss) eqn:E.
  - subst cs. rewrite rows_none in C' by assumption. inversion C'; subst. inversion Y2; subst. exists r, h. cbn. rewrite app_nil_r. auto.
  - apply shortest_zero in Q; [congruence|exact N].
  - apply shortest_zero in E; [congruence|exact N].
  - destruct B as (-> & D). rewrite shortest_tl in Q by assumption. rewrite rows_more in C' by assumption. rewrite (rows_nil_not nat xss []) by exact N.
    destruct (IH _ _ h f g ds w1 rs1 yss' w' fuel St D (tl_not_nil _ N) C' Y2) as (t & h' & R' & X & Q'); [congruence|lia|]. erewrite bind_ret by exact R'.
    destruct (append2_plist h' r ys t (concat yss') w') as (t2 & h2 & R2 & X2 & Q2); [eapply plist_ext; eassumption|exact Q'|]. exists t2, h2. split; [exact R2|]. split; [eauto|exact Q2].
Qed.
Lemma append_mapn_ok : forall xss h (f : proc) (g : behaviour) v vs w rs yss w' fuel, steady h f g -> Forall2 (plist h) (v :: vs) xss -> vs <> [] ->
  calls g w (rows xss) rs w' -> Forall2 (plist h) rs yss -> shortest xss <= fuel ->
  yields (append_map fuel f v vs h w) h w' (fun r h' => plist h' r (concat yss)).
Proof.
  intros xss h f g v vs w rs yss w' fuel St P N C Y F. unfold append_map. destruct vs as [|v2 vs]; [contradiction|]. cbn [nullp]. unfold yields.
  assert (NX : xss <> []) by (intros ->; inversion P). destruct (cars_cdrs_ok h (v :: v2 :: vs) xss w P) as (cs & ds & R & B); erewrite bind_ret by exact R. destruct (some_empty xss) eqn:E.
  - subst cs. rewrite rows_none in C by assumption. inversion C; subst. inversion Y; subst. exists Nil, h. split; [reflexivity|]. split; [auto|]. exists []. constructor.
  - destruct B as (-> & D). rewrite (rows_nil_not nat xss []) by exact NX. rewrite rows_more in C by assumption. rewrite shortest_tl in F by assumption.
    eapply append_mapn_loop_ok; [exact St|exact D|auto using tl_not_nil|exact C|exact Y|reflexivity|lia].
Qed.
(** *** split-at, unzip2 *)
Lemma split_at_ok : forall k h v ps xs z w, seg h v ps xs z -> k <= length xs ->
  yields (split_at v k h w) h w (fun r h' => plist h' (fst r) (firstn k xs) /\ seg h (snd r) (skipn k ps) (skipn k xs) z).
Proof.
  induction k as [|k IH]; intros h v ps xs z w SG L; cbn [split_at]; unfold yields.
  - exists (Nil, v), h. split; [reflexivity|]. split; [auto|]. split; [exists []; constructor|exact SG].
  - destruct xs as [|x xs]; [cbn in L; lia|]. inversion SG; subst. run. destruct (IH h d ps0 xs z w) as ([a b] & h' & R & X & (qs & Q) & B); [assumption|cbn in L; lia|].
    erewrite bind_ret by exact R. cbn beta iota. erewrite bind_ret by (eapply head_seg; eapply ext_nth; eassumption). run. eexists (_, b), _. split; [reflexivity|]. split; [auto|]. cbn in *. split; [eexists; eauto|exact B].
Qed.
(** the elements of the list are lists of at least two elements *)
Lemma unzip2_ok : forall es h v ps xys w fuel, seg h v ps es Nil -> Forall2 (two h) es xys -> length es < fuel ->
  yields (unzip2 fuel v h w) h w (fun r h' => plist h' (fst r) (map fst xys) /\ plist h' (snd r) (map snd xys)).
Proof.
  induction es as [|e es IH]; intros h v ps xys w fuel SG T F; (destruct fuel as [|fuel]; [cbn in F; lia|]); cbn [unzip2]; unfold yields; inversion T as [|? xy ? xys' (q & q' & d1 & d2 & -> & E1 & -> & E2) T']; subst.
  - run. exists (v, v), h. split; [reflexivity|]. split; [auto|]. split; exists ps; exact SG.
  - seg_cases SG. run. destruct (IH h d ps0 xys' w fuel) as ([a b] & h' & R & X & (qa & QA) & (qb & QB)); try assumption; [cbn in F; lia|]. erewrite bind_ret by exact R. cbn beta iota. cbn [fst snd] in *.
    erewrite bind_ret by (eapply tail_seg; eapply ext_nth; eassumption). erewrite bind_ret by (eapply head_seg; eapply ext_nth; eassumption). erewrite bind_ret by apply pair_run.
    erewrite bind_ret by (eapply head_seg; eapply ext_nth; [|exact E1]; auto). erewrite bind_ret by apply pair_run. eexists (_, _), _. split; [reflexivity|]. split; [auto|]. cbn [fst snd map]. split.
    + eexists. apply pair_seg. eapply seg_ext; [|exact QA]. auto.
    + eexists. eapply seg_ext; [|apply pair_seg; exact QB]. auto.
Qed.
End Walks.
