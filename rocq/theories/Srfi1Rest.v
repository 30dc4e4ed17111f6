(** Proofs about pair-fold and pair-fold-right of several lists, whose argument list is in the heap, about split-at!, and
    about delete-duplicates with a predicate that has no effect. *)
From Coq Require Import ZArith List Bool PeanoNat Lia.
From Verif Require Import Lists ListPredicates ListsProofs Srfi1 Srfi1Spec Srfi1Proofs Srfi1Walks Srfi1Writes Srfi1Sets.
Import ListNotations.
#[local] Hint Resolve ext_refl ext_trans ext_app pair_seg touched_refl : core.

Section Rest.
Context {W : Type}.
Implicit Types (h : heap) (w : W) (v : val).
Notation M := (M (W := W)). Notation proc := (proc (W := W)). Notation behaviour := (behaviour (W := W)).


Lemma seg_below : forall h v ps xs z p, seg h v ps xs z -> In p ps -> p < length h.
Proof. intros h v ps xs z p H. induction H as [|q a d ps xs z E H IH]; intros I; [destruct I|]. destruct I as [<-|I]; [|auto]. apply nth_error_Some. rewrite E. discriminate. Qed.
Lemma cdrs_cells : forall h vs pss w, Forall2 (cells h) vs pss ->
  exists ds, cdrs vs h w = Ret ds h w /\ if some_empty (pairs_of pss) then ds = [] else vs = map (hd Nil) (pairs_of pss) /\ Forall2 (cells h) ds (map (@tl nat) pss).
Proof.
  intros h vs pss w H. assert (L : if some_empty (pairs_of pss) then cdrs_loop vs h w = Ret None h w
    else vs = map (hd Nil) (pairs_of pss) /\ exists ds, cdrs_loop vs h w = Ret (Some ds) h w /\ Forall2 (cells h) ds (map (@tl nat) pss)).
  { induction H as [|v ps vs pss (xs & P) H IH]; [split; [reflexivity|]; exists []; split; [reflexivity|constructor]|]. cbn [pairs_of some_empty existsb cdrs_loop map]. run.
    seg_cases P; cbn [nullp orb map]; [reflexivity|]. fold (pairs_of pss) (some_empty (pairs_of pss)) in *. destruct (some_empty (pairs_of pss)).
    - erewrite bind_ret by exact IH. reflexivity.
    - destruct IH as (HV & ds & R & F). erewrite bind_ret by exact R. split; [cbn [hd]; congruence|]. exists (d :: ds). split; [run; reflexivity|]. constructor; [eexists; eassumption|exact F]. }
  unfold cdrs. destruct (some_empty (pairs_of pss)).
  - erewrite bind_ret by exact L. exists []. split; reflexivity.
  - destruct L as (HV & ds & R & F). erewrite bind_ret by exact R. exists ds. auto.
Qed.
Lemma spread_ok : forall h v ps xs w fuel, seg h v ps xs Nil -> length xs < fuel -> spread fuel v h w = Ret xs h w.
Proof.
  intros h v ps xs w fuel H. revert fuel. remember Nil as z eqn:Z. induction H as [z|p a d ps xs z E H IH]; intros fuel F; (destruct fuel as [|fuel]; [cbn in F; lia|]); subst; cbn [spread is_null]; [reflexivity|].
  assert (S : seg h (Ptr p) (p :: ps) (a :: xs) Nil) by (econstructor; eassumption). run.
  erewrite bind_ret by (apply IH; [reflexivity|cbn in F; lia]). reflexivity.
Qed.
Lemma seg_short : forall h v ps xs, seg h v ps xs Nil -> length xs <= length h.
Proof.
  intros h v ps xs H. rewrite <- (seg_lengths _ _ _ _ _ H). rewrite <- (seq_length (length h) 0). apply NoDup_incl_length; [eapply nodup_seg; exact H|].
  intros p I. apply in_seq. split; [lia|]. cbn. eapply seg_below; eassumption.
Qed.
Lemma spread_all_ok : forall h v ps xs w, seg h v ps xs Nil -> spread_all v h w = Ret xs h w.
Proof. intros. unfold spread_all. eapply spread_ok; [eassumption|]. pose proof (seg_short _ _ _ _ H). lia. Qed.
Lemma list_of_ok : forall vs h w, yields (list_of vs h w) h w (fun r h' => exists ps, seg h' r ps vs Nil /\ Forall (fun p => length h <= p) ps).
Proof.
  induction vs as [|v vs IH]; intros h w; cbn [list_of].
  - exists Nil, h. split; [reflexivity|]. split; [auto|]. exists []. split; constructor.
  - destruct (IH h w) as (r & h1 & R & X & ps & S & F). erewrite bind_ret by exact R. unfold pair. cbn.
    exists (Ptr (length h1)), (h1 ++ [Obj true v r]). split; [reflexivity|]. split; [eauto|].
    exists (length h1 :: ps). split; [|constructor; [apply ext_length; exact X|exact F]].
    econstructor; [rewrite nth_error_app2, Nat.sub_diag by lia; reflexivity|]. eapply seg_ext; [|exact S]; auto.
Qed.
Lemma append_bang_ok : forall h x ps xs y w, seg h x ps xs Nil ->
  exists r h', append_bang x y h w = Ret r h' w /\ touched h h' ps /\ seg h' r ps xs y.
Proof.
  intros h x ps xs y w H. pose proof (seg_short _ _ _ _ H). destruct (append_x2_spec h x ps xs y (S (length h)) H ltac:(lia)) as (r & h' & R & T & S).
  exists r, h'. unfold append_bang. rewrite R. auto.
Qed.
Lemma cells_touched : forall h h' vs pss qs, Forall2 (cells h) vs pss -> touched h h' qs -> (forall p, In p qs -> ~ In p (concat pss)) -> Forall2 (cells h') vs pss.
Proof.
  intros h h' vs pss qs H T. induction H as [|v ps vs pss (xs & P) H IH]; intros D; constructor.
  - exists xs. eapply seg_touched; [exact P|exact T|]. intros p I J. apply (D p J). cbn. apply in_or_app. auto.
  - apply IH. intros p J I. apply (D p J). cbn. apply in_or_app. auto.
Qed.
Lemma cells_ext : forall h h' vs pss, Forall2 (cells h) vs pss -> ext h h' -> Forall2 (cells h') vs pss.
Proof. intros h h' vs pss H X. induction H as [|v ps vs pss (xs & P) H IH]; constructor; [exists xs; eapply seg_ext; eassumption|exact IH]. Qed.
Lemma cells_below : forall h vs pss p, Forall2 (cells h) vs pss -> In p (concat pss) -> p < length h.
Proof. intros h vs pss p H. induction H as [|v ps vs pss (xs & P) H IH]; cbn; [intros []|]. intros I. apply in_app_or in I. destruct I; [eapply seg_below; eassumption|auto]. Qed.
Lemma concat_tl : forall (pss : list (list nat)) p, In p (concat (map (@tl nat) pss)) -> In p (concat pss).
Proof. induction pss as [|[|q ps] pss IH]; cbn; intros p I; auto. right. apply in_app_or in I. apply in_or_app. destruct I; auto. Qed.
Lemma pairs_tl : forall pss, pairs_of (map (@tl nat) pss) = map (@tl val) (pairs_of pss).
Proof. unfold pairs_of. intros pss. rewrite !map_map. apply map_ext. intros [|p ps]; reflexivity. Qed.
Lemma pairs_nil : forall pss, pss <> [] -> pairs_of pss <> [].
Proof. intros [|ps pss] N; [contradiction|discriminate]. Qed.
Lemma touched_fresh : forall h h1 h2 qs rs, touched h h1 qs -> touched h1 h2 rs -> Forall (fun p => length h <= p) rs -> touched h h2 qs.
Proof.
  intros h h1 h2 qs rs T1 T2 F q o E. destruct (T1 q o E) as (o1 & E1 & P1 & A1 & D1). destruct (T2 q o1 E1) as (o2 & E2 & P2 & A2 & D2).
  assert (L : q < length h) by (apply nth_error_Some; rewrite E; discriminate).
  exists o2. split; [exact E2|]. split; [congruence|]. split; [congruence|]. intros N. rewrite D2; [auto|].
  intros I. rewrite Forall_forall in F. specialize (F q I). lia.
Qed.


Lemma joined : forall h xs rps vs z w, seg h xs rps vs Nil ->
  exists args h3, append_bang xs (Ptr (length h)) (h ++ [Obj true z Nil]) w = Ret args h3 w /\ touched (h ++ [Obj true z Nil]) h3 rps /\ spread_all args h3 w = Ret (vs ++ [z]) h3 w.
Proof.
  intros h xs rps vs z w S. destruct (append_bang_ok (h ++ [Obj true z Nil]) xs rps vs (Ptr (length h)) w) as (args & h3 & R & T & S3).
  { eapply seg_ext; [|exact S]; eauto. }
  exists args, h3. split; [exact R|]. split; [exact T|]. eapply spread_all_ok.
  eapply seg_app; [exact S3|]. eapply seg_touched; [|exact T|].
  - econstructor; [rewrite nth_error_app2, Nat.sub_diag by lia; reflexivity|constructor].
  - intros p [<-|[]] I. pose proof (seg_below _ _ _ _ _ _ S I). lia.
Qed.

Lemma pair_foldn_loop_ok : forall n pss h (f : proc) (g : behaviour) xs rps vs w z r w' fuel, independent f g ->
  seg h xs rps vs Nil -> Forall2 (cells h) vs pss -> (forall p, In p rps -> ~ In p (concat pss)) -> pss <> [] ->
  folds g w (rows (pairs_of pss)) z r w' -> shortest (pairs_of pss) = n -> n < fuel ->
  exists h', pair_foldn_loop fuel f xs z h w = Ret r h' w' /\ touched h h' rps.
Proof.
  induction n as [|n IH]; intros pss h f g xs rps vs w z r w' fuel St S P D N C Q F; (destruct fuel as [|fuel]; [lia|]); cbn [pair_foldn_loop];
  erewrite bind_ret by (eapply spread_all_ok; exact S); destruct (cdrs_cells h vs pss w P) as (ds & R & B); erewrite bind_ret by exact R; destruct (some_empty (pairs_of pss)) eqn:E.
  - subst ds. rewrite rows_none in C by auto using pairs_nil. inversion C; subst. exists h. split; [reflexivity|auto].
  - apply shortest_zero in Q; [congruence|auto using pairs_nil].
  - apply shortest_zero in E; [congruence|auto using pairs_nil].
  - destruct B as (HV & Dp). rewrite shortest_tl in Q by auto using pairs_nil. rewrite rows_more in C by auto using pairs_nil. rewrite <- pairs_tl in *. inversion C; subst.
    destruct ds as [|d ds]; [inversion Dp; destruct pss; [contradiction|discriminate]|]. cbn [nullp]. set (dds := d :: ds) in *. clearbody dds.
    destruct (list_of_ok dds h w) as (tails & h1 & R1 & X1 & tps & S1 & F1). erewrite bind_ret by exact R1.
    erewrite bind_ret by reflexivity. cbn beta iota.
    destruct (joined h1 xs rps _ z w (seg_ext _ _ _ _ _ _ X1 S)) as (args & h3 & R3 & T3 & R4). erewrite bind_ret by exact R3. erewrite bind_ret by exact R4.
    erewrite bind_ret by (eapply independent_run; eassumption).
    assert (X2 : ext h (h1 ++ [Obj true z Nil])) by eauto.
    assert (Th : touched h h3 rps) by (eapply touched_trans; [apply touched_ext; exact X2|exact T3]).
    destruct (IH (map (@tl nat) pss) h3 f g tails tps dds w1 z1 r w' fuel) as (h' & R5 & T5); try assumption.
    + eapply seg_touched; [|exact T3|]; [eapply seg_ext; [|exact S1]; auto|]. intros p I J. rewrite Forall_forall in F1. specialize (F1 p I).
      pose proof (seg_below _ _ _ _ _ _ S J). lia.
    + eapply cells_touched; [exact Dp|exact Th|]. intros p J I. apply (D p J). apply concat_tl. exact I.
    + intros p J I. rewrite Forall_forall in F1. specialize (F1 p J). apply (cells_below _ _ _ _ Dp) in I. lia.
    + destruct pss; [contradiction|discriminate].
    + congruence.
    + lia.
    + exists h'. split; [exact R5|]. eapply touched_fresh; eassumption.
Qed.
Lemma pair_foldn_ok : forall pss ps h (f : proc) (g : behaviour) x rest rps vs w z r w' fuel, independent f g ->
  cells h x ps -> seg h rest rps vs Nil -> Forall2 (cells h) vs pss -> (forall p, In p rps -> ~ In p (concat (ps :: pss))) ->
  folds g w (rows (pairs_of (ps :: pss))) z r w' -> shortest (pairs_of (ps :: pss)) < fuel ->
  exists h', pair_foldn fuel f z x rest h w = Ret r h' w' /\ touched h h' rps.
Proof.
  intros pss ps h f g x rest rps vs w z r w' fuel I X S P D C F. unfold pair_foldn. erewrite bind_ret by reflexivity.
  set (h1 := h ++ [Obj true x rest]). assert (E : ext h h1) by (unfold h1; auto).
  destruct (pair_foldn_loop_ok (shortest (pairs_of (ps :: pss))) (ps :: pss) h1 f g (Ptr (length h)) (length h :: rps) (x :: vs) w z r w' fuel I) as (h' & R & T); try exact C; try exact F; try reflexivity; try discriminate.
  - econstructor; [unfold h1; rewrite nth_error_app2, Nat.sub_diag by lia; reflexivity|]. eapply seg_ext; eassumption.
  - eapply cells_ext; [constructor; [exact X|exact P]|exact E].
  - intros p [<-|J] K; [|exact (D p J K)]. apply (cells_below h (x :: vs)) in K; [lia|constructor; [exact X|exact P]].
  - exists h'. split; [exact R|]. intros q o Q. destruct (T q o) as (o' & A & B & G & K); [eapply ext_nth; eassumption|].
    exists o'. split; [exact A|]. split; [exact B|]. split; [exact G|]. intros N. apply K. intros [<-|J]; [|exact (N J)].
    assert (length h < length h) by (apply nth_error_Some; rewrite Q; discriminate). lia.
Qed.
Lemma pair_fold_rightn_loop_ok : forall n pss h (f : proc) (g : behaviour) xs rps vs w z r w' fuel, independent f g ->
  seg h xs rps vs Nil -> Forall2 (cells h) vs pss -> (forall p, In p rps -> ~ In p (concat pss)) -> pss <> [] ->
  folds_right g w (rows (pairs_of pss)) z r w' -> shortest (pairs_of pss) = n -> n < fuel ->
  exists h', pair_fold_rightn_loop fuel f z xs h w = Ret r h' w' /\ touched h h' rps.
Proof.
  induction n as [|n IH]; intros pss h f g xs rps vs w z r w' fuel St S P D N C Q F; (destruct fuel as [|fuel]; [lia|]); cbn [pair_fold_rightn_loop];
  erewrite bind_ret by (eapply spread_all_ok; exact S); destruct (cdrs_cells h vs pss w P) as (ds & R & B); erewrite bind_ret by exact R; destruct (some_empty (pairs_of pss)) eqn:E.
  - subst ds. rewrite rows_none in C by auto using pairs_nil. inversion C; subst. exists h. split; [reflexivity|auto].
  - apply shortest_zero in Q; [congruence|auto using pairs_nil].
  - apply shortest_zero in E; [congruence|auto using pairs_nil].
  - destruct B as (HV & Dp). rewrite shortest_tl in Q by auto using pairs_nil. rewrite rows_more in C by auto using pairs_nil. rewrite <- pairs_tl in *. inversion C; subst.
    destruct ds as [|d ds]; [inversion Dp; destruct pss; [contradiction|discriminate]|]. cbn [nullp]. set (dds := d :: ds) in *. clearbody dds.
    destruct (list_of_ok dds h w) as (tails & h1 & R1 & X1 & tps & S1 & F1). erewrite bind_ret by exact R1.
    destruct (IH (map (@tl nat) pss) h1 f g tails tps dds w z z1 w1 fuel) as (h2 & R5 & T5); try assumption.
    { eapply cells_ext; eassumption. }
    { intros p J I. rewrite Forall_forall in F1. specialize (F1 p J). apply (cells_below _ _ _ _ Dp) in I. lia. }
    { destruct pss; [contradiction|discriminate]. }
    { congruence. }
    { lia. }
    erewrite bind_ret by exact R5. erewrite bind_ret by reflexivity. cbn beta iota.
    assert (S2 : seg h2 xs rps (map (hd Nil) (pairs_of pss)) Nil).
    { eapply seg_touched; [eapply seg_ext; eassumption|exact T5|]. intros p I J. rewrite Forall_forall in F1. specialize (F1 p J).
      pose proof (seg_below _ _ _ _ _ _ S I). lia. }
    destruct (joined h2 xs rps _ z1 w1 S2) as (args & h3 & R3 & T3 & R4). erewrite bind_ret by exact R3. erewrite bind_ret by exact R4.
    exists h3. split; [eapply independent_run; eassumption|].
    eapply touched_trans; [|exact T3]. apply touched_trans with (b := h2); [|apply touched_ext; auto].
    eapply touched_fresh; [|exact T5|exact F1]. apply touched_ext. exact X1.
Qed.
Lemma pair_fold_rightn_ok : forall pss ps h (f : proc) (g : behaviour) x rest rps vs w z r w' fuel, independent f g ->
  cells h x ps -> seg h rest rps vs Nil -> Forall2 (cells h) vs pss -> (forall p, In p rps -> ~ In p (concat (ps :: pss))) ->
  folds_right g w (rows (pairs_of (ps :: pss))) z r w' -> shortest (pairs_of (ps :: pss)) < fuel ->
  exists h', pair_fold_rightn fuel f z x rest h w = Ret r h' w' /\ touched h h' rps.
Proof.
  intros pss ps h f g x rest rps vs w z r w' fuel I X S P D C F. unfold pair_fold_rightn. erewrite bind_ret by reflexivity.
  set (h1 := h ++ [Obj true x rest]). assert (E : ext h h1) by (unfold h1; auto).
  destruct (pair_fold_rightn_loop_ok (shortest (pairs_of (ps :: pss))) (ps :: pss) h1 f g (Ptr (length h)) (length h :: rps) (x :: vs) w z r w' fuel I) as (h' & R & T); try exact C; try exact F; try reflexivity; try discriminate.
  - econstructor; [unfold h1; rewrite nth_error_app2, Nat.sub_diag by lia; reflexivity|]. eapply seg_ext; eassumption.
  - eapply cells_ext; [constructor; [exact X|exact P]|exact E].
  - intros p [<-|J] K; [|exact (D p J K)]. apply (cells_below h (x :: vs)) in K; [lia|constructor; [exact X|exact P]].
  - exists h'. split; [exact R|]. intros q o Q. destruct (T q o) as (o' & A & B & G & K); [eapply ext_nth; eassumption|].
    exists o'. split; [exact A|]. split; [exact B|]. split; [exact G|]. intros N. apply K. intros [<-|J]; [|exact (N J)].
    assert (length h < length h) by (apply nth_error_Some; rewrite Q; discriminate). lia.
Qed.

(** *** split-at! *)
Lemma split_at_x_ok : forall k h v ps xs z w, seg h v ps xs z -> ends h z -> k <= length xs ->
  exists a b h', split_at_x v k h w = Ret (a, b) h' w /\ touched h h' ps /\ seg h' a (firstn k ps) (firstn k xs) Nil /\ seg h' b (skipn k ps) (skipn k xs) z.
Proof.
  intros [|k] h v ps xs z w H N L; cbn [split_at_x].
  { exists Nil, v, h. split; [reflexivity|]. split; [auto|]. split; [constructor|exact H]. }
  pose proof (seg_lengths _ _ _ _ _ H) as Le.
  destruct (split_nth ps k ltac:(lia)) as (q & rs & F1 & F2 & F3). destruct (split_nth xs k ltac:(lia)) as (a & zs & G1 & G2 & G3).
  destruct (drop_spec _ _ _ _ _ H k ltac:(lia)) as (y & Dr & Sy). rewrite F3, G3 in Sy. inversion Sy as [|? ? d ? ? ? Eq Sd]; subst.
  unfold mbind at 1, look at 1. rewrite Dr. unfold tail, mbind at 1, look at 1, cdr. rewrite Eq. cbn [second].
  assert (H' : seg h v (firstn k ps ++ q :: rs) (firstn k xs ++ a :: zs) z) by (rewrite <- F1, <- G1; exact H).
  destruct (relink h v _ q rs _ a zs z Nil H' N) as (h' & R & T & S'). { rewrite !firstn_length. lia. }
  unfold mbind at 1, write_cdr. rewrite R. exists v, d, h'. split; [reflexivity|].
  split. { eapply touched_mono; [exact T|]. intros p [<-|[]]. rewrite F1. apply in_or_app. right. left. reflexivity. }
  split. { rewrite F2, G2. exact S'. }
  replace (skipn (S k) ps) with rs by (rewrite F1; replace (S k) with (length (firstn k ps ++ [q])) by (rewrite app_length, firstn_length; cbn; lia);
    change (firstn k ps ++ q :: rs) with (firstn k ps ++ [q] ++ rs); rewrite app_assoc, skipn_app, skipn_all, Nat.sub_diag; reflexivity).
  replace (skipn (S k) xs) with zs by (rewrite G1; replace (S k) with (length (firstn k xs ++ [a])) by (rewrite app_length, firstn_length; cbn; lia);
    change (firstn k xs ++ a :: zs) with (firstn k xs ++ [a] ++ zs); rewrite app_assoc, skipn_app, skipn_all, Nat.sub_diag; reflexivity).
  eapply seg_touched; [exact Sd|exact T|]. intros p I [<-|[]]. pose proof (seg_nodup _ _ _ _ _ Sy N) as ND. inversion ND; subst. contradiction.
Qed.

(** *** delete-duplicates with a predicate without effect *)
Lemma asks_each : forall (R : val -> val -> bool) x ys (w : W), calls (asks R) w (against x ys) (map (fun y => bool_val (R x y)) ys) w.
Proof. intros R x ys w. induction ys as [|y ys IH]; cbn; econstructor; [reflexivity|exact IH]. Qed.
Lemma drop_asked : forall (R : val -> val -> bool) x ys, drop_kept ys (map (fun y => bool_val (R x y)) ys) = List.filter (fun y => negb (R x y)) ys.
Proof. intros R x ys. induction ys as [|y ys IH]; cbn; [reflexivity|]. rewrite IH. destruct (R x y); reflexivity. Qed.
Lemma filter_kept : forall (P : val -> bool) xs, kept (List.filter P xs) xs.
Proof. intros P xs. induction xs as [|x xs IH]; cbn; [constructor|]. destruct (P x); constructor; exact IH. Qed.
Lemma kept_trans : forall xs ys zs, kept xs ys -> kept ys zs -> kept xs zs.
Proof.
  intros xs ys zs H1 H2. revert xs H1. induction H2 as [|z ys zs H2 IH|z ys zs H2 IH]; intros xs H1; auto.
  - inversion H1; subst; constructor; auto.
  - constructor. auto.
Qed.
Lemma filter_short : forall (P : val -> bool) xs, length (List.filter P xs) <= length xs.
Proof. intros P xs. induction xs as [|x xs IH]; cbn; [lia|]. destruct (P x); cbn; lia. Qed.
Lemma kept_in : forall xs ys (x : val), kept xs ys -> In x xs -> In x ys.
Proof. intros xs ys x H. induction H; cbn; intros I; [exact I|destruct I; auto|auto]. Qed.
Lemma dedup_pure : forall (R : val -> val -> bool) n xs (w : W), length xs <= n -> exists ys, dedup (asks R) w xs ys w /\ kept ys xs /\
  ForallOrdPairs (fun a b => R a b = false) ys /\ (forall x, In x xs -> exists y, In y ys /\ (y = x \/ R y x = true)).
Proof.
  intros R n. induction n as [|n IH]; intros [|x xs] w L; cbn in L; try lia; try (exists []; split; [constructor|]; split; [constructor|]; split; [constructor|]; intros ? []; fail).
  pose proof (filter_short (fun y => negb (R x y)) xs) as Sh.
  destruct (IH (List.filter (fun y => negb (R x y)) xs) w ltac:(lia)) as (ys & D & K & O & C).
  exists (x :: ys). split; [|split; [|split]].
  - econstructor; [apply asks_each|]. rewrite drop_asked. exact D.
  - constructor. eapply kept_trans; [exact K|apply filter_kept].
  - constructor; [|exact O]. apply Forall_forall. intros y I. apply (kept_in _ _ _ K) in I. apply filter_In in I. destruct I as [_ I]. apply negb_true_iff in I. exact I.
  - intros y [->|I]; [exists y; split; [left; reflexivity|auto]|]. destruct (R x y) eqn:E.
    + exists x. split; [left; reflexivity|auto].
    + destruct (C y) as (z & Iz & Hz); [apply filter_In; rewrite E; auto|]. exists z. split; [right; exact Iz|exact Hz].
Qed.
End Rest.
