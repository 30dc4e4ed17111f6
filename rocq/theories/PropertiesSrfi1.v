(** C67-C70: the procedures of library/srfi-1.ss that take procedures, and the lists as sets.

    In all theorems the procedure arguments behave as [g], a function of their arguments and of a world [W] which they may
    change: they do not alter or allocate pairs ([steady], [independent]).  [calls], [search], [all_true], [folds],
    [folds_right], [unfolds] give the calls that are made, in order, with the worlds between them.  The full claims are
    about arbitrary procedure arguments. *)
From Coq Require Import ZArith List Bool PeanoNat Lia.
From Verif Require Import Lists ListPredicates ListsProofs Srfi1 Srfi1Spec Srfi1Proofs Srfi1Walks Srfi1Writes Srfi1Sets Srfi1Rest.
Import ListNotations.

(** ** C67: filtering, deleting, splitting *)
(** Missing: procedure arguments that allocate or alter pairs. *)
Theorem C67_filter_partial : forall (W : Type) (f : proc (W := W)) g h v ps xs w bs w' fuel, steady h f g -> seg h v ps xs Nil -> length xs < fuel ->
  (calls g w (each xs) bs w' ->
    yields (filter fuel f v h w) h w' (fun r h' => plist h' r (keep xs bs)) /\
    yields (remove fuel f v h w) h w' (fun r h' => plist h' r (drop_kept xs bs))) /\
  (calls g w (each (rev xs)) (rev bs) w' ->
    yields (partition fuel f v h w) h w' (fun r h' => plist h' (fst r) (keep xs bs) /\ plist h' (snd r) (drop_kept xs bs))).
Proof.
  intros W f g h v ps xs w bs w' fuel St S F. split; [intros C; split|intros C].
  - eapply filter_ok; try eassumption. apply ext_refl.
  - eapply remove_ok; eassumption.
  - destruct (partition_ok xs h f g h v ps w bs w' fuel St (ext_refl h) S C F) as (r & h' & R & X & A & B & _). exists r, h'. auto.
Qed.
Theorem C67_delete_partial : forall (W : Type) (f : proc (W := W)) g h v ps xs x w bs w' fuel, steady h f g -> seg h v ps xs Nil -> length xs < fuel ->
  (calls g w (against x xs) bs w' -> yields (delete fuel x v f h w) h w' (fun r h' => plist h' r (drop_kept xs bs))) /\
  (forall ks, Forall2 (keyed h) xs ks -> calls g w (against x ks) bs w' -> yields (alist_delete fuel x v f h w) h w' (fun r h' => plist h' r (drop_kept xs bs))) /\
  (forall ys, dedup g w xs ys w' -> yields (delete_duplicates fuel v f h w) h w' (fun r h' => plist h' r ys)).
Proof.
  intros W f g h v ps xs x w bs w' fuel St S F. split; [|split].
  - intros C. eapply delete_ok; eassumption.
  - intros ks K C. eapply alist_delete_ok; eassumption.
  - intros ys D. eapply delete_duplicates_ok; try eassumption. reflexivity.
Qed.
(** what is left by delete-duplicates with a predicate without effect, which need not be an equivalence *)
Theorem C67_duplicates : forall (W : Type) (f : proc (W := W)) R h v ps xs w fuel, decides h f R -> seg h v ps xs Nil -> length xs < fuel ->
  yields (delete_duplicates fuel v f h w) h w (fun r h' => exists ys, plist h' r ys /\ kept ys xs /\ distinct R ys /\
    (forall x, In x xs -> exists y, In y ys /\ (y = x \/ R y x = true))).
Proof.
  intros W f R h v ps xs w fuel D S F. destruct (dedup_pure R (length xs) xs w (le_n _)) as (ys & Dd & K & O & C).
  destruct (delete_duplicates_ok (length xs) xs h f (asks R) v ps w ys w fuel D S (le_n _) Dd F) as (r & h' & E & X & P).
  exists r, h'. split; [exact E|]. split; [exact X|]. exists ys. auto.
Qed.
Theorem C67_while_partial : forall (W : Type) (f : proc (W := W)) g h v ps xs w o w' fuel, steady h f g -> seg h v ps xs Nil -> length xs < fuel ->
  (search (opposite g) w (each xs) o w' ->
    yields (take_while fuel f v h w) h w' (fun r h' => plist h' r (firstn (place o xs) xs)) /\
    (exists r, drop_while fuel f v h w = Ret r h w' /\ seg h r (skipn (place o xs) ps) (skipn (place o xs) xs) Nil) /\
    yields (span fuel f v h w) h w' (fun r h' => plist h' (fst r) (firstn (place o xs) xs) /\ seg h (snd r) (skipn (place o xs) ps) (skipn (place o xs) xs) Nil)) /\
  (search g w (each xs) o w' ->
    yields (break fuel f v h w) h w' (fun r h' => plist h' (fst r) (firstn (place o xs) xs) /\ seg h (snd r) (skipn (place o xs) ps) (skipn (place o xs) xs) Nil)).
Proof.
  intros W f g h v ps xs w o w' fuel St S F. split; [intros C; split; [|split]|intros C].
  - eapply take_while_ok; eassumption.
  - eapply drop_while_ok; eassumption.
  - eapply span_ok; eassumption.
  - eapply break_ok; eassumption.
Qed.
Theorem C67_split : forall (W : Type) k h v ps xs z (w : W), seg h v ps xs z -> k <= length xs ->
  yields (split_at v k h w) h w (fun r h' => plist h' (fst r) (firstn k xs) /\ seg h (snd r) (skipn k ps) (skipn k xs) z) /\
  (ends h z -> exists a b h', split_at_x v k h w = Ret (a, b) h' w /\ touched h h' ps /\ seg h' a (firstn k ps) (firstn k xs) Nil /\ seg h' b (skipn k ps) (skipn k xs) z).
Proof. intros W k h v ps xs z w S L. split; [apply split_at_ok; assumption|]. intros N. apply split_at_x_ok; assumption. Qed.
(** the procedures that may alter their argument use its pairs, and no others are altered or allocated *)
Theorem C67_destructive_partial : forall (W : Type) (f : proc (W := W)) g h v ps xs w w' fuel, independent f g -> seg h v ps xs Nil -> length xs < fuel ->
  (forall bs, calls g w (each xs) bs w' ->
    (exists r h', filter_x fuel f v h w = Ret r h' w' /\ touched h h' ps /\ seg h' r (keep ps bs) (keep xs bs) Nil) /\
    (exists r h', remove_x fuel f v h w = Ret r h' w' /\ touched h h' ps /\ seg h' r (drop_kept ps bs) (drop_kept xs bs) Nil) /\
    (exists a b h', partition_x fuel f v h w = Ret (a, b) h' w' /\ touched h h' ps /\ seg h' a (keep ps bs) (keep xs bs) Nil /\ seg h' b (drop_kept ps bs) (drop_kept xs bs) Nil)) /\
  (forall x bs, calls g w (against x xs) bs w' -> exists r h', delete_x fuel x v f h w = Ret r h' w' /\ touched h h' ps /\ seg h' r (drop_kept ps bs) (drop_kept xs bs) Nil) /\
  (forall ys, dedup g w xs ys w' -> exists r h', delete_duplicates_x fuel v f h w = Ret r h' w' /\ touched h h' ps /\ plist h' r ys) /\
  (forall o, search (opposite g) w (each xs) o w' -> exists a b h', span_x fuel f v h w = Ret (a, b) h' w' /\ take_while_x fuel f v h w = Ret a h' w' /\ touched h h' ps /\
    seg h' a (firstn (place o xs) ps) (firstn (place o xs) xs) Nil /\ seg h' b (skipn (place o xs) ps) (skipn (place o xs) xs) Nil) /\
  (forall o, search g w (each xs) o w' -> exists a b h', break_x fuel f v h w = Ret (a, b) h' w' /\ touched h h' ps /\
    seg h' a (firstn (place o xs) ps) (firstn (place o xs) xs) Nil /\ seg h' b (skipn (place o xs) ps) (skipn (place o xs) xs) Nil).
Proof.
  intros W f g h v ps xs w w' fuel I S F. split; [|split; [|split; [|split]]].
  - intros bs C. split; [|split]; [eapply filter_x_ok|eapply remove_x_ok|eapply partition_x_ok]; eassumption.
  - intros x bs C. eapply delete_x_ok; eassumption.
  - intros ys D. eapply delete_duplicates_x_ok; try eassumption. reflexivity.
  - intros o C. eapply span_x_ok; eassumption.
  - intros o C. eapply break_x_ok; eassumption.
Qed.

(** ** C68: searching *)
Theorem C68_search_partial : forall (W : Type) (f : proc (W := W)) g h v ps xs w o w' fuel, steady h f g -> seg h v ps xs Nil -> length xs < fuel ->
  (search g w (each xs) o w' ->
    (exists r, find_tail fuel f v h w = Ret r h w' /\ match o with None => r = v_false | Some (n, _) => n < length xs /\ plist h r (skipn n xs) end) /\
    find fuel f v h w = Ret (match o with None => v_false | Some (n, _) => nth n xs Nil end) h w') /\
  (forall x, search g w (against x xs) o w' ->
    exists r, member fuel x v f h w = Ret r h w' /\ match o with None => r = v_false | Some (n, _) => n < length xs /\ seg h r (skipn n ps) (skipn n xs) Nil end) /\
  (forall key ks, Forall2 (keyed h) xs ks -> search g w (against key ks) o w' ->
    assoc fuel key v f h w = Ret (match o with None => v_false | Some (n, _) => nth n xs Nil end) h w').
Proof.
  intros W f g h v ps xs w o w' fuel St S F. split; [intros C; split|split].
  - eapply find_tail_ok; eassumption.
  - eapply find_ok; eassumption.
  - intros x C. eapply member_ok; eassumption.
  - intros key ks K C. eapply assoc_ok; eassumption.
Qed.
(** any, every, list-index and count, of one or several lists; as many calls as the shortest list has elements *)
Theorem C68_rows_partial : forall (W : Type) (f : proc (W := W)) g h v vs xs xss w w' fuel, steady h f g -> Forall2 (plist h) (v :: vs) (xs :: xss) -> shortest (xs :: xss) < fuel ->
  (forall o, search g w (rows (xs :: xss)) o w' ->
    any fuel f v vs h w = Ret (match o with None => v_false | Some (_, a) => a end) h w' /\
    list_index fuel f v vs h w = Ret (option_map fst o) h w') /\
  (forall a, all_true g w (rows (xs :: xss)) v_true a w' -> every fuel f v vs h w = Ret a h w') /\
  (forall bs, calls g w (rows (xs :: xss)) bs w' -> count fuel f v vs h w = Ret (trues bs) h w').
Proof.
  intros W f g h v vs xs xss w w' fuel St P F. inversion P as [|? ? ? ? (ps & S) P']; subst. destruct vs as [|u vs].
  - inversion P'; subst. rewrite rows_one. cbn [shortest] in F. split; [|split].
    + intros o C. split; [eapply any1_ok; eassumption|]. unfold list_index. cbn [nullp].
      erewrite list_index_ok1 by eassumption. destruct o as [[n a]|]; reflexivity.
    + intros a C. eapply every1_ok; eassumption.
    + intros bs C. unfold count. cbn [nullp]. erewrite count1_ok by eassumption. reflexivity.
  - assert (N : xss <> []) by (inversion P'; discriminate). split; [|split].
    + intros o C. split; [eapply anyn_ok; try eassumption; [discriminate|lia]|]. unfold list_index. cbn [nullp].
      erewrite list_indexn_ok by (try eassumption; discriminate || reflexivity). destruct o as [[n a]|]; reflexivity.
    + intros a C. eapply everyn_ok; try eassumption; [discriminate|lia].
    + intros bs C. unfold count. cbn [nullp]. erewrite countn_ok by (try eassumption; reflexivity). reflexivity.
Qed.

(** ** C69: folds, unfolds and maps *)
Theorem C69_fold_partial : forall (W : Type) (f : proc (W := W)) g h v vs xs xss w z r w' fuel, steady h f g -> Forall2 (plist h) (v :: vs) (xs :: xss) -> shortest (xs :: xss) < fuel ->
  (folds g w (rows (xs :: xss)) z r w' -> fold fuel f z v vs h w = Ret r h w') /\
  (folds_right g w (rows (xs :: xss)) z r w' -> fold_right fuel f z v vs h w = Ret r h w').
Proof.
  intros W f g h v vs xs xss w z r w' fuel St P F. inversion P as [|? ? ? ? (ps & S) P']; subst. destruct vs as [|u vs].
  - inversion P'; subst. rewrite rows_one. cbn [shortest] in F. split; intros C; [eapply fold1_ok|eapply fold_right1_ok]; eassumption.
  - split; intros C; [eapply foldn_ok|eapply fold_rightn_ok]; try eassumption; discriminate || reflexivity.
Qed.
Theorem C69_reduce_partial : forall (W : Type) (f : proc (W := W)) g h v ps x xs w e r w' fuel, steady h f g -> seg h v ps (x :: xs) Nil -> length xs < fuel ->
  (folds g w (each xs) x r w' -> reduce fuel f e v h w = Ret r h w') /\
  (folds_right g w (each (removelast (x :: xs))) (last (x :: xs) Nil) r w' -> reduce_right fuel f e v h w = Ret r h w') /\
  reduce fuel f e Nil h w = Ret e h w /\ reduce_right fuel f e Nil h w = Ret e h w.
Proof.
  intros W f g h v ps x xs w e r w' fuel St S F. split; [|split; [|split]].
  - intros C. eapply reduce_ok; eassumption.
  - intros C. eapply reduce_right_ok; eassumption.
  - unfold reduce. erewrite bind_ret by (eapply null_seg; constructor). reflexivity.
  - unfold reduce_right. erewrite bind_ret by (eapply null_seg; constructor). reflexivity.
Qed.
(** the pairs of the lists are passed; the list of the lists after the first, if there is one, is altered *)
Theorem C69_pair_fold_partial : forall (W : Type) (f : proc (W := W)) g h v ps xs w z r w' fuel, seg h v ps xs Nil ->
  (steady h f g -> length xs < fuel ->
    (folds g w (map (fun p => [Ptr p]) ps) z r w' -> pair_fold fuel f v z h w = Ret r h w') /\
    (folds_right g w (map (fun p => [Ptr p]) ps) z r w' -> pair_fold_right fuel f z v h w = Ret r h w')) /\
  (forall pss rest rps vs, independent f g -> seg h rest rps vs Nil -> Forall2 (cells h) vs pss -> (forall p, In p rps -> ~ In p (concat (ps :: pss))) ->
    shortest (pairs_of (ps :: pss)) < fuel ->
    (folds g w (rows (pairs_of (ps :: pss))) z r w' -> exists h', pair_foldn fuel f z v rest h w = Ret r h' w' /\ touched h h' rps) /\
    (folds_right g w (rows (pairs_of (ps :: pss))) z r w' -> exists h', pair_fold_rightn fuel f z v rest h w = Ret r h' w' /\ touched h h' rps)).
Proof.
  intros W f g h v ps xs w z r w' fuel S. split.
  - intros St F. split; intros C; [eapply pair_fold_ok|eapply pair_fold_right_ok]; eassumption.
  - intros pss rest rps vs I Sr P D F. split; intros C; [eapply pair_foldn_ok|eapply pair_fold_rightn_ok]; try eassumption; exists xs; exact S.
Qed.
(** The full claim is that pair-fold does not alter its arguments.  Refuted: the list that is given to apply is the list of
    the remaining arguments (C32_apply_refuted), and append! puts the state at its end. *)
Theorem C69_pair_fold_refuted : exists (h : heap) (x rest : val) (f : proc (W := unit)) r h',
  plist h x [Imm 7] /\ plist h rest [x] /\ independent f (fun args w => Some (Imm 9, w)) /\
  pair_foldn 5 f (Imm 8) x rest h tt = Ret r h' tt /\ plist h' rest [x; Imm 8].
Proof.
  exists [Obj true (Imm 7) Nil; Obj true (Ptr 0) Nil], (Ptr 0), (Ptr 1), (fun _ => ret (Imm 9)), (Imm 9).
  eexists. split; [exists [0]; econstructor; [reflexivity|constructor]|]. split; [exists [1]; econstructor; [reflexivity|constructor]|].
  split; [intros h0 h args w _; reflexivity|]. split; [vm_compute; reflexivity|].
  exists [1; 5]. econstructor; [reflexivity|]. econstructor; [reflexivity|constructor].
Qed.
Theorem C69_unfold_partial : forall (W : Type) (p f g e : proc (W := W)) gp gf gg ge h, steady h p gp -> steady h f gf -> steady h g gg -> steady h e ge ->
  (forall w s xs z w' fuel, unfolds gp gf gg ge w s xs z w' -> length xs < fuel -> yields (unfold fuel p f g e s h w) h w' (fun r h' => exists ps, seg h' r ps xs z)) /\
  (forall w s xs w' fuel t ps ys z, unfolds_right gp gf gg w s xs w' -> seg h t ps ys z -> length xs < fuel ->
    yields (unfold_right fuel p f g s t h w) h w' (fun r h' => exists ps, seg h' r ps (rev xs ++ ys) z)) /\
  (forall (num : nat -> val) k w rs w', calls gf w (each (rev (map num (seq 0 k)))) (rev rs) w' -> yields (list_tabulate num k f h w) h w' (fun r h' => plist h' r rs)).
Proof.
  intros W p f g e gp gf gg ge h P F G E. split; [|split].
  - intros w s xs z w' fuel U L. eapply unfold_ok; eassumption.
  - intros w s xs w' fuel t ps ys z U S L. eapply unfold_right_ok; try eassumption. apply ext_refl.
  - intros num k w rs w' C. eapply list_tabulate_loop_ok; eassumption.
Qed.
(** map-in-order, filter-map and append-map; filter-map of one list calls from the last element *)
Theorem C69_map_partial : forall (W : Type) (f : proc (W := W)) g h v vs xs xss w rs w' fuel, steady h f g -> Forall2 (plist h) (v :: vs) (xs :: xss) -> shortest (xs :: xss) < fuel ->
  (calls g w (rows (xs :: xss)) rs w' ->
    yields (map_in_order fuel f v vs h w) h w' (fun r h' => plist h' r rs) /\
    (forall yss, Forall2 (plist h) rs yss -> yields (append_map fuel f v vs h w) h w' (fun r h' => plist h' r (concat yss)))) /\
  ((if nullp vs then calls g w (each (rev xs)) (rev rs) w' else calls g w (rows (xs :: xss)) rs w') ->
    yields (filter_map fuel f v vs h w) h w' (fun r h' => plist h' r (List.filter truth rs))).
Proof.
  intros W f g h v vs xs xss w rs w' fuel St P F. inversion P as [|? ? ? ? (ps & S) P']; subst. destruct vs as [|u vs].
  - inversion P'; subst. rewrite rows_one. cbn [shortest] in F. split; [intros C; split|intros C].
    + eapply map_in_order1_ok; eassumption.
    + intros yss Y. eapply append_map1_ok; eassumption.
    + eapply filter_map1_ok; eassumption.
  - cbn [nullp]. split; [intros C; split|intros C].
    + eapply map_in_ordern_ok; try eassumption; discriminate || reflexivity.
    + intros yss Y. eapply append_mapn_ok; try eassumption; [discriminate|lia].
    + eapply filter_mapn_ok; try eassumption; discriminate || reflexivity.
Qed.
(** for-each, pair-for-each and map! of one list *)
Theorem C69_for_each_partial : forall (W : Type) (f : proc (W := W)) g h v ps xs w rs w' fuel, independent f g -> seg h v ps xs Nil -> length xs < fuel ->
  (calls g w (each xs) rs w' -> for_each1 fuel f v h w = Ret tt h w' /\ exists h', map_x fuel f v [] h w = Ret v h' w' /\ recarred h h' ps /\ seg h' v ps rs Nil) /\
  (calls g w (map (fun p => [Ptr p]) ps) rs w' -> pair_for_each1 fuel f v h w = Ret tt h w').
Proof.
  intros W f g h v ps xs w rs w' fuel I S F. split; [intros C; split|intros C].
  - eapply for_each1_ok; try eassumption. apply I.
  - eapply map_x1_ok; eassumption.
  - eapply pair_for_each1_ok; try eassumption. apply I.
Qed.
Theorem C69_unzip2 : forall (W : Type) es h v ps xys (w : W) fuel, seg h v ps es Nil -> Forall2 (two h) es xys -> length es < fuel ->
  yields (unzip2 fuel v h w) h w (fun r h' => plist h' (fst r) (map fst xys) /\ plist h' (snd r) (map snd xys)).
Proof. intros. eapply unzip2_ok; eassumption. Qed.

(** ** C70: lists as sets *)
(** x=? is an equivalence without effect, as SRFI 1 asks *)
Theorem C70_compare : forall (W : Type) (R : val -> val -> bool) (f : proc (W := W)) h us yss w fuel, equivalence R -> decides h f R -> Forall2 (plist h) us yss ->
  Forall (fun ys => length ys < fuel) yss ->
  list_eq fuel f us h w = Ret (chained (equal_lists R) yss) h w /\
  lset_le fuel f us h w = Ret (chained (subset R) yss) h w /\ lset_eq fuel f us h w = Ret (chained (same R) yss) h w.
Proof. intros. split; [|split]; [apply list_eq_ok|apply lset_le_ok|apply lset_eq_ok]; assumption. Qed.
Theorem C70_union : forall (W : Type) (R : val -> val -> bool) (f : proc (W := W)) h w fuel, equivalence R -> decides h f R ->
  (forall v xs ys, plist h v xs -> length xs + length ys < fuel ->
    yields (lset_adjoin fuel f v ys h w) h w (fun r h' => exists new, plist h' r (new ++ xs) /\ incl new ys /\
      (forall x, mem R x (new ++ xs) = mem R x xs || mem R x ys) /\ (distinct R xs -> distinct R (new ++ xs)))) /\
  (forall us yss, Forall2 (plist h) us yss -> length (concat yss) < fuel ->
    yields (lset_union fuel f us h w) h w (fun r h' => exists zs, plist h' r zs /\ (forall x, mem R x zs = existsb (mem R x) yss) /\ incl zs (concat yss) /\ (Forall (distinct R) yss -> distinct R zs)) /\
    yields (lset_xor fuel f us h w) h w (fun r h' => exists zs, plist h' r zs /\ (forall x, mem R x zs = odd_mem R x yss) /\ incl zs (concat yss))).
Proof.
  intros W R f h w fuel E D. split; [|intros us yss P F; split].
  - intros v xs ys P F. destruct (lset_adjoin_ok R ys h h f v xs w fuel D (ext_refl h) P F) as (r & h' & Q & X & S). exists r, h'. split; [exact Q|]. split; [exact X|].
    destruct (put_all_new R ys xs) as (new & A & B). exists new. rewrite <- A. split; [exact S|]. split; [exact B|].
    split; [intros x; apply put_all_mem; exact E|]. apply put_all_distinct.
  - apply lset_union_ok; assumption.
  - apply lset_xor_ok; assumption.
Qed.
Theorem C70_difference : forall (W : Type) (R : val -> val -> bool) (f : proc (W := W)) h v xs us yss w fuel, equivalence R -> decides h f R -> plist h v xs -> Forall2 (plist h) us yss ->
  length xs < fuel -> Forall (fun ys => length ys < fuel) yss ->
  yields (lset_intersection fuel f v us h w) h w (fun r h' => plist h' r (List.filter (fun x => forallb (mem R x) yss) xs)) /\
  yields (lset_difference fuel f v us h w) h w (fun r h' => plist h' r (List.filter (fun x => forallb (fun ys => negb (mem R x ys)) yss) xs)) /\
  yields (lset_diff_intersection fuel f v us h w) h w (fun r h' =>
    plist h' (fst r) (List.filter (fun x => negb (existsb (mem R x) yss)) xs) /\ plist h' (snd r) (List.filter (fun x => existsb (mem R x) yss) xs)).
Proof. intros. split; [|split]; [apply lset_intersection_ok|apply lset_difference_ok|apply lset_diff_intersection_ok]; assumption. Qed.

(** ** The theorems are not vacuous *)
(** a procedure that behaves as g *)
Definition lift {W} (g : behaviour (W := W)) : proc := fun args h w => match g args w with Some (r, w') => Ret r h w' | None => Stop end.
Example lift_independent : forall W (g : behaviour (W := W)), independent (lift g) g.
Proof. intros W g h0 h args w _. reflexivity. Qed.
(** even?, which notes its arguments in the world *)
Definition even_noted : behaviour (W := list Z) := fun args w => match args with Imm n :: _ => Some (bool_val (Z.even n), w ++ [n]) | _ => None end.
(** x, which notes it *)
Definition first_noted : behaviour (W := list Z) := fun args w => match args with Imm n :: _ => Some (Imm n, w ++ [n]) | _ => None end.
Definition sum_noted : behaviour (W := list Z) := fun args w =>
  match args with [Imm n; Imm m] => Some (Imm (n + m), w ++ [n]) | [Imm n; Imm m; Imm k] => Some (Imm (n + m + k), w ++ [n]) | _ => None end.
Definition same_number (x y : val) : bool := match x, y with Imm n, Imm m => Z.eqb n m | _, _ => veq x y end.
Definition h4 : heap := [Obj true (Imm 10) (Ptr 1); Obj true (Imm 11) (Ptr 2); Obj true (Imm 12) (Ptr 3); Obj true (Imm 10) Nil; Obj true (Imm 20) (Ptr 5); Obj true (Imm 10) Nil].
Example h4_list : seg h4 (Ptr 0) [0; 1; 2; 3] [Imm 10; Imm 11; Imm 12; Imm 10] Nil.
Proof. repeat (econstructor; [reflexivity|]). constructor. Qed.
Example h4_list2 : seg h4 (Ptr 4) [4; 5] [Imm 20; Imm 10] Nil.
Proof. repeat (econstructor; [reflexivity|]). constructor. Qed.
Definition list_at (v : val) (h : heap) : option (list val) := match spread (W := unit) (S (length h)) v h tt with Ret l _ _ => Some l | _ => None end.
Definition at_list {W} (o : out (W := W) val) : option (list val * W) := match o with Ret r h w => match list_at r h with Some l => Some (l, w) | None => None end | _ => None end.
Definition at_lists {W} (o : out (W := W) (val * val)) : option (list val * list val * W) :=
  match o with Ret (a, b) h w => match list_at a h, list_at b h with Some l, Some m => Some (l, m, w) | _, _ => None end | _ => None end.
Example even_calls : calls even_noted [] (each [Imm 10; Imm 11; Imm 12; Imm 10]) [v_true; v_false; v_true; v_true] [10; 11; 12; 10]%Z.
Proof. repeat (econstructor; [reflexivity|]). constructor. Qed.
Example filter_example : at_list (filter 9 (lift even_noted) (Ptr 0) h4 []) = Some ([Imm 10; Imm 12; Imm 10], [10; 11; 12; 10]%Z).
Proof. reflexivity. Qed.
Example remove_example : at_list (remove 9 (lift even_noted) (Ptr 0) h4 []) = Some ([Imm 11], [10; 11; 12; 10]%Z).
Proof. reflexivity. Qed.
Example partition_example : at_lists (partition 9 (lift even_noted) (Ptr 0) h4 []) = Some ([Imm 10; Imm 12; Imm 10], [Imm 11], [10; 12; 11; 10]%Z).
Proof. reflexivity. Qed.
Example partition_x_example : at_lists (partition_x 9 (lift even_noted) (Ptr 0) h4 []) = Some ([Imm 10; Imm 12; Imm 10], [Imm 11], [10; 11; 12; 10]%Z).
Proof. reflexivity. Qed.
Example delete_example : at_list (delete 9 (Imm 10) (Ptr 0) (lift (asks same_number)) h4 tt) = Some ([Imm 11; Imm 12], tt).
Proof. reflexivity. Qed.
Example duplicates_example : at_list (delete_duplicates 9 (Ptr 0) (lift (asks same_number)) h4 tt) = Some ([Imm 10; Imm 11; Imm 12], tt).
Proof. reflexivity. Qed.
Example decides_example : decides (W := unit) h4 (lift (asks same_number)) same_number.
Proof. apply lift_independent. Qed.
Example equivalence_example : equivalence same_number.
Proof.
  assert (H : forall x y, same_number x y = true <-> x = y).
  { intros [|n|p] [|m|q]; cbn; split; intros E; try congruence; try reflexivity; try discriminate.
    - apply Z.eqb_eq in E. congruence.
    - injection E as ->. apply Z.eqb_refl.
    - apply Nat.eqb_eq in E. congruence.
    - injection E as ->. apply Nat.eqb_refl. }
  split; intros *; rewrite ?H; congruence.
Qed.
Example span_example : at_lists (span 9 (lift even_noted) (Ptr 0) h4 []) = Some ([Imm 10], [Imm 11; Imm 12; Imm 10], [10; 11]%Z).
Proof. reflexivity. Qed.
Example search_example : search (opposite even_noted) [] (each [Imm 10; Imm 11; Imm 12; Imm 10]) (Some (1, v_true)) [10; 11]%Z.
Proof. eapply search_there; [reflexivity|reflexivity|]. eapply search_here; reflexivity. Qed.
Example split_example : at_lists (split_at_x (Ptr 0) 3 h4 tt) = Some ([Imm 10; Imm 11; Imm 12], [Imm 10], tt).
Proof. reflexivity. Qed.
Example find_example : find 9 (complement (lift even_noted)) (Ptr 0) h4 [] = Ret (Imm 11) h4 [10; 11]%Z.
Proof. reflexivity. Qed.
Example every_example : every 9 (lift even_noted) (Ptr 0) [Ptr 4] h4 [] = Ret v_false h4 [10; 11]%Z.
Proof. reflexivity. Qed.
Example index_example : list_index 9 (complement (lift even_noted)) (Ptr 0) [] h4 [] = Ret (Some 1) h4 [10; 11]%Z.
Proof. reflexivity. Qed.
Example rows_example : rows [[Imm 10; Imm 11; Imm 12; Imm 10]; [Imm 20; Imm 10]] = [[Imm 10; Imm 20]; [Imm 11; Imm 10]].
Proof. reflexivity. Qed.
Example fold_example : fold 9 (lift sum_noted) (Imm 0) (Ptr 0) [Ptr 4] h4 [] = Ret (Imm 51) h4 [10; 11]%Z.
Proof. reflexivity. Qed.
Example fold_right_example : fold_right 9 (lift sum_noted) (Imm 0) (Ptr 0) [] h4 [] = Ret (Imm 43) h4 [10; 12; 11; 10]%Z.
Proof. reflexivity. Qed.
Example folds_example : folds sum_noted [] (rows [[Imm 10; Imm 11; Imm 12; Imm 10]; [Imm 20; Imm 10]]) (Imm 0) (Imm 51) [10; 11]%Z.
Proof. econstructor; [reflexivity|]. econstructor; [reflexivity|]. constructor. Qed.
Example map_example : at_list (map_in_order 9 (lift first_noted) (Ptr 0) [Ptr 4] h4 []) = Some ([Imm 10; Imm 11], [10; 11]%Z).
Proof. reflexivity. Qed.
Example unfold_example : at_list (unfold 9 (lift (fun args w => match args with [Imm n] => Some (bool_val (Z.leb 3 n), w) | _ => None end)) (lift first_noted)
  (lift (fun args w => match args with [Imm n] => Some (Imm (n + 1), w) | _ => None end)) (lift (fun _ w => Some (Nil, w))) (Imm 0) h4 []) = Some ([Imm 0; Imm 1; Imm 2], [2; 1; 0]%Z).
Proof. reflexivity. Qed.
Example union_example : at_list (lset_union 9 (lift (asks same_number)) [Ptr 4; Ptr 0] h4 tt) = Some ([Imm 12; Imm 11; Imm 20; Imm 10], tt).
Proof. reflexivity. Qed.
Example xor_example : at_list (lset_xor 9 (lift (asks same_number)) [Ptr 4; Ptr 0] h4 tt) = Some ([Imm 12; Imm 11; Imm 20], tt).
Proof. reflexivity. Qed.
Example difference_example : at_list (lset_difference 9 (lift (asks same_number)) (Ptr 0) [Ptr 4] h4 tt) = Some ([Imm 11; Imm 12], tt).
Proof. reflexivity. Qed.
Example lset_eq_example : lset_eq 9 (lift (asks same_number)) [Ptr 0; Ptr 1] h4 tt = Ret true h4 tt.
Proof. reflexivity. Qed.

Print Assumptions C67_filter_partial.
Print Assumptions C67_delete_partial.
Print Assumptions C67_duplicates.
Print Assumptions C67_while_partial.
Print Assumptions C67_split.
Print Assumptions C67_destructive_partial.
Print Assumptions C68_search_partial.
Print Assumptions C68_rows_partial.
Print Assumptions C69_fold_partial.
Print Assumptions C69_reduce_partial.
Print Assumptions C69_pair_fold_partial.
Print Assumptions C69_pair_fold_refuted.
Print Assumptions C69_unfold_partial.
Print Assumptions C69_map_partial.
Print Assumptions C69_for_each_partial.
Print Assumptions C69_unzip2.
Print Assumptions C70_compare.
Print Assumptions C70_union.
Print Assumptions C70_difference.
