(** Proofs about the procedures of SRFI 1 with an equivalence: list=, delete-duplicates, lists as sets. *)
From Coq Require Import ZArith List Bool PeanoNat Lia.
From Verif Require Import Lists ListPredicates ListsProofs Srfi1 Srfi1Spec Srfi1Proofs Srfi1Walks Srfi1Writes.
Import ListNotations.
#[local] Hint Resolve ext_refl ext_trans ext_app pair_seg touched_refl : core.

Lemma mem_iff : forall R x xs, mem R x xs = true <-> exists y, In y xs /\ R x y = true.
Proof. intros. unfold mem. apply existsb_exists. Qed.
Lemma mem_false : forall R x xs, mem R x xs = false <-> forall y, In y xs -> R x y = false.
Proof. intros. unfold mem. split.
  - intros E y I. destruct (R x y) eqn:Q; [|reflexivity]. assert (existsb (R x) xs = true) by (apply existsb_exists; eauto). congruence.
  - intros H. destruct (existsb (R x) xs) eqn:Q; [|reflexivity]. apply existsb_exists in Q. destruct Q as (y & I & E). rewrite (H y I) in E. discriminate.
Qed.
Lemma mem_app : forall R x xs ys, mem R x (xs ++ ys) = mem R x xs || mem R x ys.
Proof. intros. unfold mem. apply existsb_app. Qed.
Lemma mem_resp : forall R, equivalence R -> forall x y xs, R x y = true -> mem R x xs = mem R y xs.
Proof.
  intros R EQ x y xs E. apply eq_iff_eq_true. rewrite !mem_iff. split; intros (z & I & Z); exists z; split; auto.
  - eapply (R_trans R EQ); [|exact Z]. apply (R_sym R EQ). exact E.
  - eapply (R_trans R EQ); [exact E|exact Z].
Qed.
Lemma mem_In : forall R, equivalence R -> forall x xs, In x xs -> mem R x xs = true.
Proof. intros R EQ x xs I. apply mem_iff. exists x. split; [exact I|apply (R_refl R EQ)]. Qed.

Section Sets.
Context {W : Type} (R : val -> val -> bool).
Implicit Types (h : heap) (w : W) (v : val).
Notation M := (M (W := W)). Notation proc := (proc (W := W)). Notation behaviour := (behaviour (W := W)).
Notation asks := (asks (W := W) R). Notation subset := (subset R). Notation same := (same R). Notation equal_lists := (equal_lists R).
Notation distinct := (distinct R). Notation odd_mem := (odd_mem R). Notation put_in := (put_in R). Notation put_all := (put_all R).
Lemma decides_test : forall f x y h w, decides h f R -> test f [x; y] h w = Ret (R x y) h w.
Proof. intros f x y h w D. rewrite (test_run h h f asks [x; y] w (bool_val (R x y)) w D (ext_refl h) eq_refl). rewrite truth_bool. reflexivity. Qed.
Lemma decides_ext : forall h h' f, decides h f R -> ext h h' -> decides (W := W) h' f R.
Proof. intros h h' f D E h1 args w X. apply D. eapply ext_trans; eassumption. Qed.
Ltac go := repeat (first [run1 | erewrite bind_ret by (apply decides_test; assumption)]; cbn [nullp negb]).

(** where member stops *)
Fixpoint tail_from (x : val) (ps : list nat) (xs : list val) : val :=
  match ps, xs with p :: ps, y :: xs => if R x y then Ptr p else tail_from x ps xs | _, _ => v_false end.
Lemma tail_from_truth : forall x ps xs, length ps = length xs -> truth (tail_from x ps xs) = mem R x xs.
Proof. intros x. induction ps as [|p ps IH]; intros [|y xs] L; cbn in *; try lia. destruct (R x y); [reflexivity|]. apply IH. lia. Qed.
Lemma member_pure : forall xs h (f : proc) x v ps w fuel, decides h f R -> seg h v ps xs Nil -> length xs < fuel ->
  member fuel x v f h w = Ret (tail_from x ps xs) h w.
Proof.
  induction xs as [|y xs IH]; intros h f x v ps w fuel D S F; (destruct fuel as [|fuel]; [cbn in F; lia|]); cbn [member]; go.
  - inversion S; subst. reflexivity.
  - seg_cases S. go. cbn [tail_from]. destruct (R x y); [reflexivity|]. go. apply IH; auto. cbn in F; lia.
Qed.
Lemma memberq_pure : forall xs h (f : proc) x v w fuel, decides h f R -> plist h v xs -> length xs < fuel -> memberq fuel f x v h w = Ret (mem R x xs) h w.
Proof. intros xs h f x v w fuel D (ps & S) F. unfold memberq. erewrite bind_ret by (eapply member_pure; eassumption). unfold ret. rewrite tail_from_truth by (eapply seg_lengths; exact S). reflexivity. Qed.

(** calls of procedures of one argument without effect *)
Definition pure1 (k : val -> val) : behaviour := fun args w => match args with [x] => Some (k x, w) | _ => None end.
Lemma calls_pure1 : forall k xs w, calls (pure1 k) w (each xs) (map k xs) w.
Proof. intros k. induction xs as [|x xs IH]; intros w; [constructor|]. econstructor; [reflexivity|apply IH]. Qed.
Lemma keep_pure : forall (k : val -> val) (xs : list val), keep xs (map k xs) = List.filter (fun x => truth (k x)) xs.
Proof. intros k. induction xs as [|x xs IH]; cbn; [reflexivity|]. rewrite IH. destruct (truth (k x)); reflexivity. Qed.
Lemma drop_pure : forall (k : val -> val) (xs : list val), drop_kept xs (map k xs) = List.filter (fun x => negb (truth (k x))) xs.
Proof. intros k. induction xs as [|x xs IH]; cbn; [reflexivity|]. rewrite IH. destruct (truth (k x)); reflexivity. Qed.
Lemma all_true_pure : forall k xs w z, truth z = true -> exists a, all_true (pure1 k) w (each xs) z a w /\ truth a = forallb (fun x => truth (k x)) xs.
Proof.
  intros k. induction xs as [|x xs IH]; intros w z Z; [exists z; split; [constructor|exact Z]|]. cbn [forallb]. destruct (truth (k x)) eqn:E.
  - destruct (IH w (k x) E) as (a & A & T). exists a. split; [|exact T]. eapply all_more; [reflexivity|exact E|exact A].
  - exists v_false. split; [|reflexivity]. eapply all_false; [reflexivity|exact E].
Qed.
Lemma search_pure : forall k xs w, exists o, search (pure1 k) w (each xs) o w /\ match o with None => existsb (fun x => truth (k x)) xs = false | Some (_, a) => truth a = true /\ existsb (fun x => truth (k x)) xs = true end.
Proof.
  intros k. induction xs as [|x xs IH]; intros w; [exists None; split; [constructor|reflexivity]|]. cbn [existsb]. destruct (truth (k x)) eqn:E.
  - exists (Some (0, k x)). split; [|auto]. eapply search_here; [reflexivity|exact E].
  - destruct (IH w) as ([[n a]|] & S & Q); eexists; (split; [first [eapply search_there; [reflexivity|exact E|exact S] | eapply search_nowhere; [reflexivity|exact E|exact S]]|exact Q]).
Qed.

(** *** lset<=, lset= *)
Lemma in_list_steady : forall h (f : proc) v ps ys fuel, decides h f R -> seg h v ps ys Nil -> length ys < fuel ->
  steady h (in_list fuel f v) (pure1 (fun x => tail_from x ps ys)).
Proof.
  intros h f v ps ys fuel D S F h' args w X. unfold in_list, pure1. destruct args as [|x [|? ?]]; try reflexivity. eapply member_pure; [exact (decides_ext _ _ _ D X)|eapply seg_ext; eassumption|exact F].
Qed.
Lemma lset2_le_ok : forall xs ys h (f : proc) v u w fuel, decides h f R -> plist h v xs -> plist h u ys -> length xs < fuel -> length ys < fuel ->
  exists r, lset2_le fuel f v u h w = Ret r h w /\ truth r = subset xs ys.
Proof.
  intros xs ys h f v u w fuel D (ps & S) (qs & Q) F1 F2. destruct (all_true_pure (fun x => tail_from x qs ys) xs w v_true eq_refl) as (a & A & T).
  exists a. split; [|rewrite T; unfold subset].
  - unfold lset2_le. eapply every1_ok; [eapply in_list_steady; eassumption|exact S|exact A|exact F1].
  - clear - Q. generalize xs as l. induction l as [|x l IH]; cbn; [reflexivity|]. rewrite tail_from_truth by (eapply seg_lengths; exact Q). rewrite IH. reflexivity.
Qed.
Hypothesis EQ : equivalence R.
Lemma plist_fun : forall h v xs ys, plist h v xs -> plist h v ys -> xs = ys.
Proof.
  intros h v xs ys (ps & A) (qs & B). remember Nil as z eqn:Z. revert qs ys B. induction A as [m|p a d ps xs m E A IH]; intros qs ys B; inversion B; subst; try reflexivity; try discriminate.
  match goal with H : nth_error h p = Some (Obj true ?b ?e) |- _ => rewrite E in H; injection H as <- <- end. f_equal. eapply IH; eauto.
Qed.
Lemma subset_refl : forall xs, subset xs xs = true.
Proof. intros xs. apply forallb_forall. intros x I. apply mem_In; assumption. Qed.
Lemma lset_le_loop_ok : forall h (f : proc) us yss w fuel, decides h f R -> Forall2 (plist h) us yss -> forall v xs, plist h v xs ->
  Forall (fun ys => length ys < fuel) (xs :: yss) -> lset_le_loop fuel f v us h w = Ret (chain subset xs yss) h w.
Proof.
  intros h f us yss w fuel D FF. induction FF as [|u ys us yss U FF IH]; intros v xs P F; cbn [lset_le_loop chain]; [reflexivity|].
  inversion F as [|? ? F1 F2]; subst. inversion F2 as [|? ? F3 F4]; subst. destruct (veq v u) eqn:V.
  - apply veq_iff in V. subst u. rewrite (plist_fun _ _ _ _ P U), subset_refl. apply IH; assumption.
  - destruct (lset2_le_ok xs ys h f v u w fuel D P U F1 F3) as (r & RR & T). erewrite bind_ret by exact RR. rewrite T. destruct (subset xs ys); [apply IH; assumption|reflexivity].
Qed.
Lemma lset_le_ok : forall h (f : proc) us yss w fuel, decides h f R -> Forall2 (plist h) us yss -> Forall (fun ys => length ys < fuel) yss ->
  lset_le fuel f us h w = Ret (chained subset yss) h w.
Proof. intros h f us yss w fuel D [|u ys us' yss' U FF] F; [reflexivity|]. cbn [lset_le chained]. eapply lset_le_loop_ok; eassumption. Qed.
Lemma lset_eq_loop_ok : forall h (f : proc) us yss w fuel, decides h f R -> Forall2 (plist h) us yss -> forall v xs, plist h v xs ->
  Forall (fun ys => length ys < fuel) (xs :: yss) -> lset_eq_loop fuel f v us h w = Ret (chain same xs yss) h w.
Proof.
  intros h f us yss w fuel D FF. induction FF as [|u ys us yss U FF IH]; intros v xs P F; cbn [lset_eq_loop chain]; [reflexivity|].
  inversion F as [|? ? F1 F2]; subst. inversion F2 as [|? ? F3 F4]; subst. unfold same at 1. destruct (veq v u) eqn:V.
  - apply veq_iff in V. subst u. rewrite (plist_fun _ _ _ _ P U), subset_refl. apply IH; assumption.
  - destruct (lset2_le_ok xs ys h f v u w fuel D P U F1 F3) as (r & RR & T). erewrite bind_ret by exact RR. rewrite T. destruct (subset xs ys); [|reflexivity].
    destruct (lset2_le_ok ys xs h f u v w fuel D U P F3 F1) as (r2 & RR2 & T2). erewrite bind_ret by exact RR2. rewrite T2. destruct (subset ys xs); [apply IH; assumption|reflexivity].
Qed.
Lemma lset_eq_ok : forall h (f : proc) us yss w fuel, decides h f R -> Forall2 (plist h) us yss -> Forall (fun ys => length ys < fuel) yss ->
  lset_eq fuel f us h w = Ret (chained same yss) h w.
Proof. intros h f us yss w fuel D [|u ys us' yss' U FF] F; [reflexivity|]. cbn [lset_eq chained]. eapply lset_eq_loop_ok; eassumption. Qed.
(** *** list= *)
Lemma equal_lists_refl : forall xs, equal_lists xs xs = true.
Proof. induction xs; cbn; [reflexivity|]. rewrite (R_refl R EQ). exact IHxs. Qed.
Lemma list_eq_inner_ok : forall xs ys h (f : proc) v u w fuel, decides h f R -> plist h v xs -> plist h u ys -> length xs < fuel ->
  list_eq_inner fuel f v u h w = Ret (equal_lists xs ys) h w.
Proof.
  induction xs as [|x xs IH]; intros ys h f v u w fuel D (ps & S) (qs & Q) F; (destruct fuel as [|fuel]; [cbn in F; lia|]); cbn [list_eq_inner]; go.
  - rewrite (null_seg h u qs ys w Q). destruct ys; reflexivity.
  - destruct ys as [|y ys]; cbn [nullp]; [reflexivity|]. seg_cases S. seg_cases Q. go. cbn [equal_lists]. destruct (R x y); [|reflexivity]. go. apply IH; auto; try (eexists; eassumption). cbn in F; lia.
Qed.
Lemma list_eq_ok : forall h (f : proc) us yss w fuel, decides h f R -> Forall2 (plist h) us yss -> Forall (fun ys => length ys < fuel) yss ->
  list_eq fuel f us h w = Ret (chained equal_lists yss) h w.
Proof.
  intros h f us yss w fuel D [|u ys us' yss' U FF] F; [reflexivity|]. cbn [list_eq chained]. revert u ys U F. induction FF as [|u2 ys2 us2 yss2 U2 FF IH]; intros u ys U F; cbn [list_eq_outer chain]; [reflexivity|].
  inversion F as [|? ? F1 F2]; subst. destruct (veq u u2) eqn:V.
  - apply veq_iff in V. subst u2. rewrite (plist_fun _ _ _ _ U U2), equal_lists_refl. apply IH; assumption.
  - erewrite bind_ret by (eapply list_eq_inner_ok; eassumption). destruct (equal_lists ys ys2); [apply IH; assumption|reflexivity].
Qed.
(** *** lset-adjoin, lset-union *)
Lemma put_all_length : forall ys acc, length (put_all ys acc) <= length acc + length ys.
Proof. induction ys as [|y ys IH]; intros acc; cbn; [lia|]. specialize (IH (put_in acc y)). unfold put_all in *. assert (length (put_in acc y) <= S (length acc)) by (unfold put_in; destruct (mem R y acc); cbn; lia). lia. Qed.
Lemma put_in_mem : forall x acc y, mem R x (put_in acc y) = mem R x acc || R x y.
Proof.
  intros x acc y. unfold put_in. destruct (mem R y acc) eqn:E; cbn.
  - destruct (R x y) eqn:Q; [|rewrite orb_false_r; reflexivity]. rewrite (mem_resp R EQ x y acc Q), E. reflexivity.
  - apply orb_comm.
Qed.
Lemma put_all_mem : forall ys acc x, mem R x (put_all ys acc) = mem R x acc || mem R x ys.
Proof.
  induction ys as [|y ys IH]; intros acc x; [cbn; rewrite orb_false_r; reflexivity|]. change (put_all (y :: ys) acc) with (put_all ys (put_in acc y)). change (mem R x (y :: ys)) with (R x y || mem R x ys). rewrite IH, put_in_mem. rewrite orb_assoc. reflexivity.
Qed.
Lemma put_all_incl : forall ys acc, incl (put_all ys acc) (acc ++ ys).
Proof.
  induction ys as [|y ys IH]; intros acc; cbn; [rewrite app_nil_r; apply incl_refl|]. intros z Z. apply IH in Z. apply in_app_or in Z. apply in_or_app. destruct Z as [Z|Z]; [|right; right; exact Z].
  unfold put_in in Z. destruct (mem R y acc); [left; exact Z|]. destruct Z as [->|Z]; [right; left; reflexivity|left; exact Z].
Qed.
Lemma put_all_new : forall ys acc, exists new, put_all ys acc = new ++ acc /\ incl new ys.
Proof.
  induction ys as [|y ys IH]; intros acc; [exists []; split; [reflexivity|intros ? []]|]. change (put_all (y :: ys) acc) with (put_all ys (put_in acc y)).
  destruct (IH (put_in acc y)) as (new & -> & I). unfold put_in. destruct (mem R y acc).
  - exists new. split; [reflexivity|]. apply incl_tl. exact I.
  - exists (new ++ [y]). rewrite <- app_assoc. split; [reflexivity|]. apply incl_app; [apply incl_tl; exact I|]. intros z [<-|[]]. left. reflexivity.
Qed.
Lemma put_all_distinct : forall ys acc, distinct acc -> distinct (put_all ys acc).
Proof.
  induction ys as [|y ys IH]; intros acc D; cbn; [exact D|]. apply IH. unfold put_in. destruct (mem R y acc) eqn:E; [exact D|]. constructor; [|exact D]. apply Forall_forall. apply mem_false. exact E.
Qed.
Lemma lset_adjoin_ok : forall ys h0 h (f : proc) v xs w fuel, decides h f R -> ext h0 h -> plist h v xs -> length xs + length ys < fuel ->
  yields (lset_adjoin fuel f v ys h w) h w (fun r h' => plist h' r (put_all ys xs)).
Proof.
  unfold lset_adjoin. induction ys as [|y ys IH]; intros h0 h f v xs w fuel D X (ps & S) F; cbn [fold_args]; unfold yields.
  - exists v, h. split; [reflexivity|]. split; [auto|]. exists ps. exact S.
  - cbn in F. rewrite bind_assoc. erewrite bind_ret by (eapply member_pure; [exact D|exact S|lia]). rewrite tail_from_truth by (eapply seg_lengths; exact S). change (put_all (y :: ys) xs) with (put_all ys (put_in xs y)). unfold put_in. destruct (mem R y xs) eqn:E.
    + erewrite bind_ret by reflexivity. apply (IH h0 h f v xs w fuel D X (ex_intro _ ps S)). lia.
    + erewrite bind_ret by apply pair_run. destruct (IH h0 (h ++ [Obj true y v]) f (Ptr (length h)) (y :: xs) w fuel (decides_ext _ _ _ D (ext_app _ _ _ (ext_refl _)))) as (r & h' & RR & X' & P); auto; [eexists; eauto|cbn; lia|].
      exists r, h'. split; [exact RR|]. split; [eapply ext_trans; [|exact X']; auto|exact P].
Qed.
Lemma adjoin_run : forall ys h (f : proc) x u qs w fuel, decides h f R -> seg h u qs ys Nil -> length ys < fuel ->
  adjoin fuel f [x; u] h w = if mem R x ys then Ret u h w else Ret (Ptr (length h)) (h ++ [Obj true x u]) w.
Proof.
  intros ys h f x u qs w fuel D Q F. unfold adjoin.
  assert (ST : steady h (same_as f x) (pure1 (fun y => bool_val (R x y)))).
  { intros h' args w0 X. unfold same_as, pure1. destruct args as [|y [|? ?]]; try reflexivity. eapply (steady_run h h' f asks); [exact D|exact X|reflexivity]. }
  destruct (search_pure (fun y => bool_val (R x y)) ys w) as (o & S & P). erewrite bind_ret by (eapply any1_ok; [exact ST|exact Q|exact S|exact F]).
  replace (mem R x ys) with (existsb (fun y => truth (bool_val (R x y))) ys) by (unfold mem; clear; induction ys; cbn; [reflexivity|]; rewrite truth_bool, IHys; reflexivity).
  destruct o as [[n a]|]; [destruct P as (-> & ->)|rewrite P]; reflexivity.
Qed.
Lemma fold_adjoin_ok : forall xs h (f : proc) v ps u ys w fuel n, decides h f R -> seg h v ps xs Nil -> plist h u ys -> length xs < n -> length xs + length ys < fuel ->
  yields (fold1 n (adjoin fuel f) v u h w) h w (fun r h' => plist h' r (put_all xs ys)).
Proof.
  induction xs as [|x xs IH]; intros h f v ps u ys w fuel n D S (qs & Q) L F; (destruct n as [|n]; [cbn in L; lia|]); cbn [fold1]; unfold yields; go.
  - exists u, h. split; [reflexivity|]. split; [auto|]. exists qs. exact Q.
  - seg_cases S. go. cbn in F, L. change (put_all (x :: xs) ys) with (put_all xs (put_in ys x)). unfold put_in. assert (A := adjoin_run ys h f x u qs w fuel D Q ltac:(lia)). destruct (mem R x ys).
    + erewrite bind_ret by exact A. go. eapply IH; try eassumption; try lia. exists qs. exact Q.
    + erewrite bind_ret by exact A. erewrite bind_ret by (eapply tail_seg; eapply ext_nth; [|exact E]; auto).
      destruct (IH (h ++ [Obj true x u]) f d ps0 (Ptr (length h)) (x :: ys) w fuel n (decides_ext _ _ _ D (ext_app _ _ _ (ext_refl _)))) as (r & h' & RR & X' & P); try lia; [eapply seg_ext; [|eassumption]; auto|eexists; eauto|cbn; lia|].
      exists r, h'. split; [exact RR|]. split; [eapply ext_trans; [|exact X']; auto|exact P].
Qed.
(** the lists of the arguments: at each step the result holds the elements so far *)
Lemma lset_union_step : forall h (f : proc) v xs u ys w fuel, decides h f R -> plist h v xs -> plist h u ys -> length xs + length ys < fuel ->
  yields ((if is_null v then ret u else if is_null u then ret v else if veq v u then ret u else fold fuel (adjoin fuel f) u v []) h w) h w
    (fun r h' => exists zs, plist h' r zs /\ (forall x, mem R x zs = mem R x xs || mem R x ys) /\ incl zs (ys ++ xs) /\ length zs <= length xs + length ys /\ (distinct xs -> distinct ys -> distinct zs)).
Proof.
  intros h f v xs u ys w fuel D P Q F. unfold yields. destruct (is_null v) eqn:NV; [|destruct (is_null u) eqn:NU; [|destruct (veq v u) eqn:V]].
  - assert (xs = []) as ->. { destruct P as (ps & S). destruct v; try discriminate. inversion S; reflexivity. }
    exists u, h. split; [reflexivity|]. split; [auto|]. exists ys. split; [exact Q|]. split; [reflexivity|]. split; [rewrite app_nil_r; apply incl_refl|]. split; [cbn; lia|auto].
  - assert (ys = []) as ->. { destruct Q as (ps & S). destruct u; try discriminate. inversion S; reflexivity. }
    exists v, h. split; [reflexivity|]. split; [auto|]. exists xs. split; [exact P|]. split; [intros x; rewrite orb_false_r; reflexivity|]. split; [apply incl_refl|]. split; [cbn; lia|auto].
  - apply veq_iff in V. subst u. rewrite <- (plist_fun _ _ _ _ P Q). exists v, h. split; [reflexivity|]. split; [auto|]. exists xs. split; [exact P|]. split; [intros x; symmetry; apply orb_diag|]. split; [apply incl_appl; apply incl_refl|]. split; [lia|auto].
  - unfold fold. cbn [nullp]. destruct P as (ps & S). destruct (fold_adjoin_ok xs h f v ps u ys w fuel fuel D S Q) as (r & h' & RR & X & P'); try lia. exists r, h'. split; [exact RR|]. split; [exact X|].
    exists (put_all xs ys). split; [exact P'|]. split; [intros x; rewrite put_all_mem; apply orb_comm|]. split; [apply put_all_incl|]. split; [pose proof (put_all_length xs ys); lia|]. intros _ DY. apply put_all_distinct. exact DY.
Qed.
Lemma fold_union_ok : forall us yss h0 h (f : proc) v xs w fuel, decides h0 f R -> Forall2 (plist h0) us yss -> ext h0 h -> plist h v xs -> length xs + length (concat yss) < fuel ->
  yields (fold_args (fun xs ys => if is_null xs then ret ys else if is_null ys then ret xs else if veq xs ys then ret ys else fold fuel (adjoin fuel f) ys xs []) us v h w) h w
    (fun r h' => exists zs, plist h' r zs /\ (forall x, mem R x zs = mem R x xs || existsb (mem R x) yss) /\ incl zs (xs ++ concat yss) /\ (distinct xs -> Forall distinct yss -> distinct zs)).
Proof.
  intros us yss h0 h f v xs w fuel D FF. revert h v xs. induction FF as [|u ys us yss U FF IH]; intros h v xs X P F; cbn [fold_args]; unfold yields.
  - exists v, h. split; [reflexivity|]. split; [auto|]. exists xs. split; [exact P|]. split; [intros x; cbn; rewrite orb_false_r; reflexivity|]. split; [apply incl_appl; apply incl_refl|auto].
  - cbn [concat] in F. rewrite app_length in F. destruct (lset_union_step h f u ys v xs w fuel (decides_ext _ _ _ D X)) as (r & h1 & RR & X1 & zs & PZ & MZ & IZ & LZ & DZ); [eapply plist_ext; eassumption|exact P|lia|].
    erewrite bind_ret by exact RR. destruct (IH h1 r zs) as (r2 & h2 & RR2 & X2 & zs2 & PZ2 & MZ2 & IZ2 & DZ2); [eauto|exact PZ|lia|].
    exists r2, h2. split; [exact RR2|]. split; [eauto|]. exists zs2. split; [exact PZ2|]. split; [|split].
    + intros x. rewrite MZ2, MZ. cbn [existsb]. rewrite (orb_comm (mem R x ys)), orb_assoc. reflexivity.
    + intros z Z. apply IZ2 in Z. apply in_app_or in Z. cbn [concat]. rewrite app_assoc. apply in_or_app. destruct Z as [Z|Z]; [left; apply IZ; exact Z|right; exact Z].
    + intros DX DY. inversion DY; subst. apply DZ2; auto.
Qed.
Lemma lset_union_ok : forall us yss h (f : proc) w fuel, decides h f R -> Forall2 (plist h) us yss -> length (concat yss) < fuel ->
  yields (lset_union fuel f us h w) h w
    (fun r h' => exists zs, plist h' r zs /\ (forall x, mem R x zs = existsb (mem R x) yss) /\ incl zs (concat yss) /\ (Forall distinct yss -> distinct zs)).
Proof.
  intros us yss h f w fuel D FF F. unfold lset_union, reduce_args. destruct FF as [|u ys us yss U FF]; unfold yields.
  - exists Nil, h. split; [reflexivity|]. split; [auto|]. exists []. split; [exists []; constructor|]. split; [reflexivity|]. split; [apply incl_refl|]. intros _. constructor.
  - cbn [concat] in F. rewrite app_length in F. destruct (fold_union_ok us yss h h f u ys w fuel D FF (ext_refl h) U F) as (r & h' & RR & X & zs & P & MZ & IZ & DZ).
    exists r, h'. split; [exact RR|]. split; [exact X|]. exists zs. split; [exact P|]. split; [exact MZ|]. split; [exact IZ|]. intros DD. inversion DD; subst. auto.
Qed.
(** *** lset-intersection, lset-difference, lset-diff+intersection *)
Lemma every_list_ok : forall (p : val -> M bool) (P : list val -> bool) us yss h w, Forall2 (plist h) us yss ->
  (forall u ys, In u us -> plist h u ys -> In ys yss -> p u h w = Ret (P ys) h w) -> every_list p us h w = Ret (forallb P yss) h w.
Proof.
  intros p P us yss h w FF. induction FF as [|u ys us yss U FF IH]; intros H; cbn [every_list forallb]; [reflexivity|].
  erewrite bind_ret by (apply H; [left; reflexivity|exact U|left; reflexivity]). destruct (P ys); [|reflexivity]. apply IH. intros u' ys' I U' I'. apply H; [right; exact I|exact U'|right; exact I'].
Qed.
Lemma any_list_ok : forall (p : val -> M bool) (P : list val -> bool) us yss h w, Forall2 (plist h) us yss ->
  (forall u ys, In u us -> plist h u ys -> In ys yss -> p u h w = Ret (P ys) h w) -> any_list p us h w = Ret (existsb P yss) h w.
Proof.
  intros p P us yss h w FF. induction FF as [|u ys us yss U FF IH]; intros H; cbn [any_list existsb]; [reflexivity|].
  erewrite bind_ret by (apply H; [left; reflexivity|exact U|left; reflexivity]). destruct (P ys); [reflexivity|]. apply IH. intros u' ys' I U' I'. apply H; [right; exact I|exact U'|right; exact I'].
Qed.
(** the lists that satisfy c, with their elements *)
Lemma filter_lists : forall (c : val -> bool) h us yss, Forall2 (plist h) us yss -> exists yss', Forall2 (plist h) (List.filter c us) yss' /\
  incl yss' yss /\ forall ys, In ys yss -> In ys yss' \/ exists u, In u us /\ plist h u ys /\ c u = false.
Proof.
  intros c h us yss FF. induction FF as [|u ys us yss U FF (yss' & A & B & C)]; [exists []; split; [constructor|]; split; [apply incl_refl|intros ? []]|]. cbn. destruct (c u) eqn:E.
  - exists (ys :: yss'). split; [constructor; assumption|]. split; [apply incl_cons; [left; reflexivity|apply incl_tl; exact B]|]. intros ys' [<-|I]; [left; left; reflexivity|]. destruct (C ys' I) as [Q|(u' & I' & Q)]; [left; right; exact Q|]. right. exists u'. split; [right; exact I'|exact Q].
  - exists yss'. split; [exact A|]. split; [apply incl_tl; exact B|]. intros ys' [<-|I]; [right; exists u; split; [left; reflexivity|auto]|]. destruct (C ys' I) as [Q|(u' & I' & Q)]; [left; exact Q|]. right. exists u'. split; [right; exact I'|exact Q].
Qed.
Lemma filter_ext_In : forall A (p q : A -> bool) l, (forall x, In x l -> p x = q x) -> List.filter p l = List.filter q l.
Proof. intros A p q. induction l as [|x l IH]; intros H; cbn; [reflexivity|]. rewrite (H x) by (left; reflexivity). rewrite IH by (intros y I; apply H; right; exact I). reflexivity. Qed.
Lemma filter_none : forall A (p : A -> bool) l, (forall x, In x l -> p x = false) -> List.filter p l = [].
Proof. intros A p. induction l as [|x l IH]; intros H; cbn; [reflexivity|]. rewrite (H x) by (left; reflexivity). apply IH. intros y I. apply H. right. exact I. Qed.
Lemma filter_every : forall A (p : A -> bool) l, (forall x, In x l -> p x = true) -> List.filter p l = l.
Proof. intros A p. induction l as [|x l IH]; intros H; cbn; [reflexivity|]. rewrite (H x) by (left; reflexivity). f_equal. apply IH. intros y I. apply H. right. exact I. Qed.
Lemma filter_truth : forall (P : val -> bool) xs, List.filter (fun x => truth (bool_val (P x))) xs = List.filter P xs.
Proof. intros. apply filter_ext_In. intros. apply truth_bool. Qed.
Lemma filter_pure_ok : forall xs h (f : proc) (P : val -> bool) v ps w fuel, steady h f (pure1 (fun x => bool_val (P x))) -> seg h v ps xs Nil -> length xs < fuel ->
  yields (filter fuel f v h w) h w (fun r h' => plist h' r (List.filter P xs)).
Proof.
  intros xs h f P v ps w fuel St S F. rewrite <- filter_truth, <- keep_pure. eapply filter_ok; [exact St|auto|exact S|apply calls_pure1|exact F].
Qed.
Lemma Forall2_ext : forall h h' us yss, ext h h' -> Forall2 (plist h) us yss -> Forall2 (plist h') us yss.
Proof. intros h h' us yss X FF. induction FF; constructor; auto. eapply plist_ext; eassumption. Qed.
Lemma lset_intersection_ok : forall us yss h (f : proc) v xs w fuel, decides h f R -> plist h v xs -> Forall2 (plist h) us yss -> length xs < fuel -> Forall (fun ys => length ys < fuel) yss ->
  yields (lset_intersection fuel f v us h w) h w (fun r h' => plist h' r (List.filter (fun x => forallb (mem R x) yss) xs)).
Proof.
  intros us yss h f v xs w fuel D P FF F FY. unfold lset_intersection. destruct (filter_lists (fun u => negb (veq v u)) h us yss FF) as (yss' & FF' & I1 & I2).
  assert (I3 : forall x, In x xs -> forallb (mem R x) yss = forallb (mem R x) yss').
  { intros x IX. apply eq_iff_eq_true. rewrite !forallb_forall. split; intros H ys I; [apply H; apply I1; exact I|]. destruct (I2 ys I) as [Q|(u & IU & PU & V)]; [apply H; exact Q|].
    apply negb_false_iff, veq_iff in V. subst u. rewrite <- (plist_fun _ _ _ _ P PU). apply mem_In; assumption. }
  rewrite (filter_ext_In _ _ _ xs I3). unfold yields.
  erewrite bind_ret by (apply (any_list_ok null_listq nullp _ _ _ _ FF'); intros u ys _ (qs & Q) _; exact (null_seg h u qs ys w Q)).
  destruct (existsb nullp yss') eqn:NE.
  { exists Nil, h. split; [reflexivity|]. split; [auto|]. rewrite filter_none; [exists []; constructor|]. intros x _. apply existsb_exists in NE. destruct NE as ([|y ys] & I & N); [|discriminate].
    destruct (forallb (mem R x) yss') eqn:Q; [|reflexivity]. rewrite forallb_forall in Q. specialize (Q [] I). discriminate. }
  destruct (nullp (List.filter (fun u => negb (veq v u)) us)) eqn:NU.
  { destruct (List.filter (fun u => negb (veq v u)) us); [|discriminate]. inversion FF'; subst. exists v, h. split; [reflexivity|]. split; [auto|]. cbn. rewrite filter_every by reflexivity. exact P. }
  destruct P as (ps & S). eapply filter_pure_ok; [|exact S|exact F]. intros h' args w' X. unfold pure1. destruct args as [|x [|? ?]]; try reflexivity.
  erewrite bind_ret; [reflexivity|]. apply every_list_ok; [eapply Forall2_ext; eassumption|]. intros u ys _ PU IY. apply memberq_pure; [exact (decides_ext _ _ _ D X)|exact PU|]. rewrite Forall_forall in FY. apply FY. apply I1. exact IY.
Qed.
Lemma plist_pairp : forall h u ys, plist h u ys -> is_pair h u = negb (nullp ys).
Proof. intros h u ys (ps & S). inversion S; subst; [reflexivity|]. cbn. rewrite H. reflexivity. Qed.
Lemma lset_difference_ok : forall us yss h (f : proc) v xs w fuel, decides h f R -> plist h v xs -> Forall2 (plist h) us yss -> length xs < fuel -> Forall (fun ys => length ys < fuel) yss ->
  yields (lset_difference fuel f v us h w) h w (fun r h' => plist h' r (List.filter (fun x => forallb (fun ys => negb (mem R x ys)) yss) xs)).
Proof.
  intros us yss h f v xs w fuel D P FF F FY. unfold lset_difference. destruct (filter_lists (is_pair h) h us yss FF) as (yss' & FF' & I1 & I2).
  assert (I3 : forall x, In x xs -> forallb (fun ys => negb (mem R x ys)) yss = forallb (fun ys => negb (mem R x ys)) yss').
  { intros x IX. apply eq_iff_eq_true. rewrite !forallb_forall. split; intros H ys I; [apply H; apply I1; exact I|]. destruct (I2 ys I) as [Q|(u & IU & PU & V)]; [apply H; exact Q|].
    rewrite (plist_pairp _ _ _ PU) in V. destruct ys; [reflexivity|discriminate]. }
  rewrite (filter_ext_In _ _ _ xs I3). unfold yields. destruct (nullp (List.filter (is_pair h) us)) eqn:NU.
  { destruct (List.filter (is_pair h) us); [|discriminate]. inversion FF'; subst. exists v, h. split; [reflexivity|]. split; [auto|]. cbn. rewrite filter_every by reflexivity. exact P. }
  destruct (existsb (veq v) (List.filter (is_pair h) us)) eqn:NE.
  { exists Nil, h. split; [reflexivity|]. split; [auto|]. rewrite filter_none; [exists []; constructor|]. intros x IX. apply existsb_exists in NE. destruct NE as (u & IU & V). apply veq_iff in V. subst u.
    assert (exists ys, In ys yss' /\ plist h v ys) as (ys & IY & PY). { clear - FF' IU. induction FF'; [destruct IU|]. destruct IU as [->|IU]; [exists y; split; [left; reflexivity|assumption]|]. destruct (IHFF' IU) as (ys & A & B). exists ys. split; [right; exact A|exact B]. }
    destruct (forallb (fun ys => negb (mem R x ys)) yss') eqn:Q; [|reflexivity]. rewrite forallb_forall in Q. specialize (Q ys IY). rewrite <- (plist_fun _ _ _ _ P PY), (mem_In R EQ x xs IX) in Q. discriminate. }
  destruct P as (ps & S). eapply filter_pure_ok; [|exact S|exact F]. intros h' args w' X. unfold pure1. destruct args as [|x [|? ?]]; try reflexivity.
  erewrite bind_ret; [reflexivity|]. apply (every_list_ok _ (fun ys => negb (mem R x ys))); [eapply Forall2_ext; eassumption|]. intros u ys _ PU IY. erewrite bind_ret by (apply (memberq_pure ys); [exact (decides_ext _ _ _ D X)|exact PU|rewrite Forall_forall in FY; apply FY; apply I1; exact IY]). reflexivity.
Qed.
Lemma lset_diff_intersection_ok : forall us yss h (f : proc) v xs w fuel, decides h f R -> plist h v xs -> Forall2 (plist h) us yss -> length xs < fuel -> Forall (fun ys => length ys < fuel) yss ->
  yields (lset_diff_intersection fuel f v us h w) h w (fun r h' => plist h' (fst r) (List.filter (fun x => negb (existsb (mem R x) yss)) xs) /\ plist h' (snd r) (List.filter (fun x => existsb (mem R x) yss) xs)).
Proof.
  intros us yss h f v xs w fuel D P FF F FY. unfold lset_diff_intersection, yields.
  erewrite bind_ret by (apply (every_list_ok null_listq nullp _ _ _ _ FF); intros u ys _ (qs & Q) _; exact (null_seg h u qs ys w Q)).
  destruct (forallb nullp yss) eqn:NE.
  { assert (Z : forall x, existsb (mem R x) yss = false). { intros x. destruct (existsb (mem R x) yss) eqn:Q; [|reflexivity]. apply existsb_exists in Q. destruct Q as (ys & I & Q). rewrite forallb_forall in NE. specialize (NE ys I). destruct ys; discriminate. }
    exists (v, Nil), h. split; [reflexivity|]. split; [auto|]. cbn [fst snd]. rewrite filter_every by (intros x _; rewrite Z; reflexivity). rewrite filter_none by (intros x _; apply Z). split; [exact P|exists []; constructor]. }
  destruct (existsb (veq v) us) eqn:NV.
  { assert (Z : forall x, In x xs -> existsb (mem R x) yss = true). { intros x IX. apply existsb_exists in NV. destruct NV as (u & IU & V). apply veq_iff in V. subst u.
      assert (exists ys, In ys yss /\ plist h v ys) as (ys & IY & PY). { clear - FF IU. induction FF; [destruct IU|]. destruct IU as [->|IU]; [exists y; split; [left; reflexivity|assumption]|]. destruct (IHFF IU) as (ys & A & B). exists ys. split; [right; exact A|exact B]. }
      apply existsb_exists. exists ys. split; [exact IY|]. rewrite <- (plist_fun _ _ _ _ P PY). apply mem_In; assumption. }
    exists (Nil, v), h. split; [reflexivity|]. split; [auto|]. cbn [fst snd]. rewrite filter_none by (intros x IX; rewrite (Z x IX); reflexivity). rewrite filter_every by exact Z. split; [exists []; constructor|exact P]. }
  destruct P as (ps & S). match goal with |- context [partition fuel ?k v] => set (cb := k) end.
  assert (ST : steady h cb (pure1 (fun x => bool_val (negb (existsb (mem R x) yss))))).
  { intros h' args w' X. unfold pure1, cb. destruct args as [|x [|? ?]]; try reflexivity. erewrite bind_ret; [reflexivity|]. apply any_list_ok; [eapply Forall2_ext; eassumption|]. intros u ys _ PU IY. apply memberq_pure; [exact (decides_ext _ _ _ D X)|exact PU|]. rewrite Forall_forall in FY. apply FY. exact IY. }
  destruct (partition_ok xs h cb _ h v ps w (map (fun x => bool_val (negb (existsb (mem R x) yss))) xs) w fuel ST (ext_refl h) S) as (r & h' & RR & X & A & B & _); [rewrite <- map_rev; apply calls_pure1|exact F|].
  exists r, h'. split; [exact RR|]. split; [exact X|]. rewrite keep_pure, drop_pure in *. split.
  - rewrite filter_truth in A. exact A.
  - erewrite filter_ext_In; [exact B|]. intros x _. cbn. rewrite truth_bool, negb_involutive. reflexivity.
Qed.
(** *** lset-xor *)
Lemma fold_except_ok : forall xs h0 h (f : proc) v ps u ys i is_ w fuel n, decides h f R -> ext h0 h -> seg h v ps xs Nil -> plist h u ys -> plist h0 i is_ -> length xs < n -> length is_ < fuel ->
  yields (fold1 n (fun args => match args with [x; xs] => mbind (memberq fuel f x i) (fun t => if t then ret xs else pair x xs) | _ => stop end) v u h w) h w
    (fun r h' => plist h' r (rev (List.filter (fun x => negb (mem R x is_)) xs) ++ ys)).
Proof.
  induction xs as [|x xs IH]; intros h0 h f v ps u ys i is_ w fuel n D X S (qs & Q) PI L F; (destruct n as [|n]; [cbn in L; lia|]); cbn [fold1]; unfold yields; go.
  - exists u, h. split; [reflexivity|]. split; [auto|]. exists qs. exact Q.
  - seg_cases S. go. cbn in L. rewrite bind_assoc. erewrite bind_ret by (apply (memberq_pure is_); [exact D|eapply plist_ext; eassumption|exact F]). cbn [List.filter]. destruct (mem R x is_) eqn:E1; cbn [negb].
    + erewrite bind_ret by reflexivity. go. eapply (IH h0); try eassumption; try lia. exists qs. exact Q.
    + erewrite bind_ret by apply pair_run. erewrite bind_ret by (eapply tail_seg; eapply ext_nth; [|exact E]; auto).
      destruct (IH h0 (h ++ [Obj true x u]) f d ps0 (Ptr (length h)) (x :: ys) i is_ w fuel n (decides_ext _ _ _ D (ext_app _ _ _ (ext_refl _)))) as (r & h' & RR & X' & P); try lia; auto; [eapply seg_ext; [|eassumption]; auto|eexists; eauto|].
      exists r, h'. split; [exact RR|]. split; [eapply ext_trans; [|exact X']; auto|]. cbn [rev]. rewrite <- app_assoc. exact P.
Qed.
Lemma mem_filter : forall (P : val -> bool) x xs, (forall y, R x y = true -> P y = P x) -> mem R x (List.filter P xs) = mem R x xs && P x.
Proof.
  intros P x xs H. apply eq_iff_eq_true. rewrite andb_true_iff, !mem_iff. split.
  - intros (y & I & E). apply filter_In in I. destruct I as (I & Q). split; [exists y; auto|]. rewrite <- (H y E). exact Q.
  - intros ((y & I & E) & Q). exists y. split; [|exact E]. apply filter_In. split; [exact I|]. rewrite (H y E). exact Q.
Qed.
Lemma mem_rev : forall x xs, mem R x (rev xs) = mem R x xs.
Proof. intros. apply eq_iff_eq_true. rewrite !mem_iff. split; intros (y & I & E); exists y; (split; [|exact E]); [apply in_rev; exact I|apply -> in_rev; exact I]. Qed.
Lemma lset_xor2_ok : forall h (f : proc) vb bs va as_ w fuel, decides h f R -> plist h vb bs -> plist h va as_ -> length as_ + length bs < fuel ->
  yields (lset_xor2 fuel f vb va h w) h w (fun r h' => exists zs, plist h' r zs /\ (forall x, mem R x zs = xorb (mem R x as_) (mem R x bs)) /\ incl zs (as_ ++ bs) /\ length zs <= length as_ + length bs).
Proof.
  intros h f vb bs va as_ w fuel D PB PA F. unfold lset_xor2, yields.
  destruct (lset_diff_intersection_ok [vb] [bs] h f va as_ w fuel D PA) as ([d i] & h1 & RR & X1 & PD & PI); [constructor; [exact PB|constructor]|lia|constructor; [lia|constructor]|].
  erewrite bind_ret by exact RR. cbn beta iota. cbn [fst snd existsb] in *.
  set (ds := List.filter (fun x => negb (mem R x bs || false)) as_) in *. set (is_ := List.filter (fun x => mem R x bs || false) as_) in *.
  assert (MD : forall x, mem R x ds = mem R x as_ && negb (mem R x bs)).
  { intros x. unfold ds. rewrite mem_filter; [rewrite orb_false_r; reflexivity|]. intros y E. rewrite (mem_resp R EQ x y bs E). reflexivity. }
  assert (MI : forall x, mem R x is_ = mem R x as_ && mem R x bs).
  { intros x. unfold is_. rewrite mem_filter; [rewrite orb_false_r; reflexivity|]. intros y E. rewrite (mem_resp R EQ x y bs E). reflexivity. }
  assert (LI : length is_ <= length as_) by (unfold is_; clear; induction as_ as [|a l IH]; cbn; [lia|]; destruct (mem R a bs || false); cbn; lia).
  assert (LD : length ds <= length as_) by (unfold ds; clear; induction as_ as [|a l IH]; cbn; [lia|]; destruct (negb (mem R a bs || false)); cbn; lia).
  assert (ID : incl ds as_) by (intros z Z; unfold ds in Z; apply filter_In in Z; tauto).
  destruct (is_null d) eqn:ND.
  - assert (DN : ds = []) by (destruct PD as (ps & S); destruct d; try discriminate; inversion S; reflexivity). rewrite DN in MD.
    destruct (lset_difference_ok [va] [as_] h1 f vb bs w fuel (decides_ext _ _ _ D X1)) as (r & h2 & RR2 & X2 & P2); [eapply plist_ext; eassumption|constructor; [eapply plist_ext; eassumption|constructor]|lia|constructor; [lia|constructor]|].
    exists r, h2. split; [exact RR2|]. split; [eauto|]. eexists. split; [exact P2|]. split; [|split].
    + intros x. rewrite mem_filter. * cbn [forallb]. specialize (MD x). cbn in MD. destruct (mem R x as_), (mem R x bs); cbn in *; congruence. * intros y E. cbn [forallb]. rewrite (mem_resp R EQ x y as_ E). reflexivity.
    + intros z Z. apply filter_In in Z. apply in_or_app. right. tauto.
    + clear. induction bs as [|b l IH]; cbn in *; [lia|]. destruct (negb (mem R b as_) && true); cbn; lia.
  - destruct (is_null i) eqn:NI.
    + assert (IN : is_ = []) by (destruct PI as (ps & S); destruct i; try discriminate; inversion S; reflexivity). rewrite IN in MI.
      destruct (append2_plist h1 vb bs va as_ w) as (r & h2 & RR2 & X2 & P2); [eapply plist_ext; eassumption|eapply plist_ext; eassumption|].
      exists r, h2. split; [exact RR2|]. split; [eauto|]. eexists. split; [exact P2|]. split; [|split].
      * intros x. rewrite mem_app. specialize (MI x). cbn in MI. destruct (mem R x as_), (mem R x bs); cbn in *; congruence.
      * intros z Z. apply in_app_or in Z. apply in_or_app. tauto.
      * rewrite app_length. lia.
    + unfold fold. cbn [nullp]. destruct PB as (pb & SB). 
      destruct (fold_except_ok bs h1 h1 f vb pb d ds i is_ w fuel fuel (decides_ext _ _ _ D X1) (ext_refl h1)) as (r & h2 & RR2 & X2 & P2); [eapply seg_ext; eassumption|exact PD|exact PI|lia|lia|].
      exists r, h2. split; [exact RR2|]. split; [eauto|]. eexists. split; [exact P2|]. split; [|split].
      * intros x. rewrite mem_app, mem_rev, mem_filter. -- rewrite MD, MI. destruct (mem R x as_), (mem R x bs); reflexivity. -- intros y E. rewrite (mem_resp R EQ x y is_ E). reflexivity.
      * intros z Z. apply in_app_or in Z. apply in_or_app. destruct Z as [Z|Z]; [right; apply in_rev in Z; apply filter_In in Z; tauto|left; apply ID; exact Z].
      * rewrite app_length, rev_length. assert (LF : forall q l, length (List.filter (fun x => negb (mem R x q)) l) <= length l) by (clear; intros q l; induction l as [|b l IH]; cbn; [lia|]; destruct (negb (mem R b q)); cbn; lia). specialize (LF is_ bs). lia.
Qed.
Lemma lset_xor_ok : forall us yss h (f : proc) w fuel, decides h f R -> Forall2 (plist h) us yss -> length (concat yss) < fuel ->
  yields (lset_xor fuel f us h w) h w (fun r h' => exists zs, plist h' r zs /\ (forall x, mem R x zs = odd_mem x yss) /\ incl zs (concat yss)).
Proof.
  intros us yss h f w fuel D FF F. unfold lset_xor, reduce_args, yields. destruct FF as [|u ys us yss U FF].
  - exists Nil, h. split; [reflexivity|]. split; [auto|]. exists []. split; [exists []; constructor|]. split; [reflexivity|apply incl_refl].
  - cbn [concat] in F. rewrite app_length in F. cbn [odd_mem List.fold_right concat].
    assert (G : forall h1 v xs, ext h h1 -> plist h1 v xs -> length xs + length (concat yss) < fuel ->
      yields (fold_args (lset_xor2 fuel f) us v h1 w) h1 w (fun r h' => exists zs, plist h' r zs /\ (forall x, mem R x zs = xorb (mem R x xs) (odd_mem x yss)) /\ incl zs (xs ++ concat yss))).
    { clear U F. induction FF as [|u2 ys2 us yss U2 FF IH]; intros h1 v xs X P F; cbn [fold_args]; unfold yields.
      - exists v, h1. split; [reflexivity|]. split; [auto|]. exists xs. split; [exact P|]. split; [intros x; cbn; rewrite xorb_false_r; reflexivity|apply incl_appl; apply incl_refl].
      - cbn [concat] in F. rewrite app_length in F. destruct (lset_xor2_ok h1 f u2 ys2 v xs w fuel (decides_ext _ _ _ D X)) as (r & h2 & RR & X2 & zs & PZ & MZ & IZ & LZ); [eapply plist_ext; eassumption|exact P|lia|].
        erewrite bind_ret by exact RR. destruct (IH h2 r zs) as (r2 & h3 & RR2 & X3 & zs2 & PZ2 & MZ2 & IZ2); [eauto|exact PZ|lia|]. exists r2, h3. split; [exact RR2|]. split; [eauto|]. exists zs2. split; [exact PZ2|]. split.
        + intros x. rewrite MZ2, MZ. cbn [odd_mem List.fold_right]. apply xorb_assoc_reverse.
        + intros z Z. apply IZ2 in Z. apply in_app_or in Z. cbn [concat]. rewrite app_assoc. apply in_or_app. destruct Z as [Z|Z]; [left; apply IZ; exact Z|right; exact Z]. }
    destruct (G h u ys (ext_refl h) U F) as (r & h' & RR & X & zs & P & MZ & IZ). exists r, h'. split; [exact RR|]. split; [exact X|]. exists zs. auto.
Qed.
End Sets.
