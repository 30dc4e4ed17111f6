(** Proofs about map, for-each and their companions for strings and vectors. *)
From Coq Require Import ZArith List Bool PeanoNat Lia.
From Verif Require Import Lists ListPredicates ListsProofs Srfi1 Srfi1Spec Srfi1Proofs Mapping MappingSpec.
Import ListNotations.

Section Proofs.
Context {W : Type}.
Implicit Types (h : heap) (w : W) (v : val).
Notation M := (M (W := W)). Notation proc := (proc (W := W)).

Lemma ext_snoc : forall h o, ext h (h ++ [o]).
Proof. intros h o. exists [o]. reflexivity. Qed.
Lemma seg_size : forall h v ps xs, seg h v ps xs Nil -> length xs <= length h.
Proof.
  intros h v ps xs SG. pose proof (seg_nodup _ _ _ _ _ SG Logic.I) as ND. rewrite <- (seg_lengths _ _ _ _ _ SG).
  rewrite <- (seq_length (length h) 0). apply NoDup_incl_length; [exact ND|].
  intros p Hp. apply in_seq. split; [lia|]. clear ND. induction SG; [contradiction|].
  destruct Hp as [<-|Hp]; [|auto]. cbn. apply nth_error_Some. congruence.
Qed.
Lemma reversed_ok : forall h v ps xs w, seg h v ps xs Nil -> exists r h', reversed v h w = Ret r h' w /\ ext h h' /\ plist h' r (rev xs).
Proof.
  intros h v ps xs w SG. pose proof (seg_size _ _ _ _ SG) as L.
  destruct (reverse_spec h v ps xs Nil (S (length h)) SG Logic.I) as (r & h' & ps' & R & X & S' & _); [lia|].
  exists r, h'. unfold reversed. rewrite R. split; [reflexivity|]. split; [exact X|]. exists ps'. exact S'.
Qed.

Lemma runs_before : forall (f : proc) h0 h w argss rs h' w', ext h0 h -> runs f h w argss rs h' w' -> runs f h0 w argss rs h' w'.
Proof. intros f h0 h w argss rs h' w' X R. destruct R as [h w h' X'|h w h1 args r h2 w1 argss rs h' w' X' E R]; [constructor; exact (ext_trans _ _ _ X X')|exact (runs_one _ _ _ _ _ _ _ _ _ _ _ _ (ext_trans _ _ _ X X') E R)]. Qed.
Lemma only_adds_ext : forall h h' (f : proc), only_adds h f -> ext h h' -> only_adds h' f.
Proof. intros h h' f T X args h1 w r h2 w2 X1 E. eapply T; [|exact E]. eapply ext_trans; eassumption. Qed.

Lemma starts_ext : forall h h' v xs, ext h h' -> starts h v xs -> starts h' v xs.
Proof. intros h h' v xs X (ps & z & SG). exists ps, z. eapply seg_ext; eassumption. Qed.
Lemma cut_ext : forall h h' n vs xss, ext h h' -> cut h n vs xss -> cut h' n vs xss.
Proof.
  intros h h' n vs xss X (A & B & C). split; [|split; [exact B|]].
  - clear B C. induction A; constructor; eauto using starts_ext.
  - clear A B. induction C as [v l (xs & (ps & SG) & L)|v l H IH]; [left|right; exact IH]. exists xs. split; [exists ps; eapply seg_ext; eassumption|exact L].
Qed.
Lemma first_rows_more : forall n xss, Forall (fun xs => length xs = S n) xss ->
  first_rows (S n) xss = map (hd Nil) xss :: first_rows n (map (@tl val) xss).
Proof.
  intros n xss L. unfold first_rows. cbn [seq map]. f_equal.
  - apply map_ext. intros [|x xs]; reflexivity.
  - rewrite <- seq_shift, map_map. apply map_ext. intros i. rewrite map_map. apply map_ext. intros [|x xs]; [destruct i; reflexivity|reflexivity].
Qed.
Lemma cut_done : forall h vs xss, cut h 0 vs xss -> existsb is_null vs = true.
Proof.
  intros h vs xss (_ & _ & C). induction C as [v l (xs & (ps & SG) & L)|v l H IH]; cbn; [|rewrite IH; apply orb_true_r].
  destruct xs; [|discriminate]. inversion SG; subst. reflexivity.
Qed.
Lemma cut_step : forall h n vs xss w, cut h (S n) vs xss -> existsb is_null vs = false /\ heads vs h w = Ret (map (hd Nil) xss) h w /\
  exists ds, (forall h' w', ext h h' -> tails vs h' w' = Ret ds h' w') /\ cut h n ds (map (@tl val) xss).
Proof.
  intros h n vs xss w (A & B & C).
  assert (G : existsb is_null vs = false /\ heads vs h w = Ret (map (hd Nil) xss) h w /\
    exists ds, (forall h' w', ext h h' -> tails vs h' w' = Ret ds h' w') /\ Forall2 (starts h) ds (map (@tl val) xss) /\ Forall (fun xs => length xs = n) (map (@tl val) xss) /\
      Forall2 (fun v d => exists p a, v = Ptr p /\ nth_error h p = Some (Obj true a d)) vs ds).
  { clear C. induction A as [|v xs vs xss (ps & z & SG) A IH].
    - split; [reflexivity|]. split; [reflexivity|]. exists []. repeat split; constructor.
    - inversion B as [|? ? L B']; subst. destruct xs as [|x xs]; [discriminate|]. destruct (IH B') as (N & H & ds & T & S' & L' & P).
      inversion SG as [|p a d ps' ? ? E SG']; subst. split; [cbn; exact N|]. split.
      + cbn [heads map hd]. erewrite bind_ret by (eapply head_seg; eassumption). erewrite bind_ret by exact H. reflexivity.
      + exists (d :: ds). split; [|split; [|split]].
        * intros h' w' X. cbn [tails]. erewrite bind_ret by (eapply tail_seg; eapply ext_nth; eassumption). erewrite bind_ret by (apply T; exact X). reflexivity.
        * constructor; [exists ps', z; exact SG'|exact S'].
        * constructor; [cbn in L |- *; lia|exact L'].
        * constructor; [eauto|exact P]. }
  destruct G as (N & H & ds & T & S' & L' & P). split; [exact N|]. split; [exact H|]. exists ds. split; [exact T|]. split; [exact S'|]. split; [exact L'|].
  clear - C P. induction P as [|v d vs ds (p & a & -> & E) P IH]; inversion C as [? ? (xs & (ps & SG) & L)|]; subst; [left|right; auto].
  inversion SG as [|? ? ? ps' xs' ? E' SG']; subst. rewrite E in E'. injection E' as <- <-. exists xs'. split; [exists ps'; exact SG'|cbn in L; lia].
Qed.

Lemma bind_not : forall A B (m : M A) (k : A -> M B) h w, (m h w = Stop -> mbind m k h w = Stop) /\ (m h w = More -> mbind m k h w = More).
Proof. intros. unfold mbind. split; intros ->; reflexivity. Qed.

Lemma mapn_ok : forall n h vs xss (f : proc) a aps acc w fuel, only_adds h f -> cut h n vs xss -> seg h a aps acc Nil -> n < fuel ->
  makes f (mapn fuel f vs a) (first_rows n xss) (fun rs r h' => plist h' r (rev acc ++ rs)) h w.
Proof.
  induction n as [|n IH]; intros h vs xss f a aps acc w fuel T C SG F; (destruct fuel as [|fuel]; [lia|]).
  - left. destruct (reversed_ok h a aps acc w SG) as (r & h' & R & X & P). exists [], r, h', w. split; [|split; [|split]].
    + cbn [mapn]. rewrite (cut_done _ _ _ C). exact R.
    + exact X.
    + constructor. exact X.
    + rewrite app_nil_r. exact P.
  - pose proof C as (_ & L & _). rewrite (first_rows_more _ _ L). destruct (cut_step h n vs xss w C) as (N & H & ds & TL & C').
    assert (U : mapn (S fuel) f vs a h w = mbind (f (map (hd Nil) xss)) (fun r => mbind (pair r a) (fun a' => mbind (tails vs) (fun ds => mapn fuel f ds a'))) h w).
    { cbn [mapn]. rewrite N. erewrite bind_ret by exact H. reflexivity. }
    destruct (f (map (hd Nil) xss) h w) as [r h1 w1| |] eqn:E.
    + assert (X : ext h h1) by (eapply T; [apply ext_refl|exact E]). set (h2 := h1 ++ [Obj true r a]). assert (X2 : ext h1 h2) by apply ext_snoc.
      assert (X02 : ext h h2) by (eapply ext_trans; eassumption).
      assert (V : mapn (S fuel) f vs a h w = mapn fuel f ds (Ptr (length h1)) h2 w1).
      { rewrite U. erewrite bind_ret by exact E. erewrite bind_ret by apply pair_run. fold h2. erewrite bind_ret by (apply TL; exact X02). reflexivity. }
      assert (SG2 : seg h2 (Ptr (length h1)) (length h1 :: aps) (r :: acc) Nil) by (apply pair_seg; eapply seg_ext; eassumption).
      destruct (IH h2 ds (map (@tl val) xss) f (Ptr (length h1)) (length h1 :: aps) (r :: acc) w1 fuel) as [(rs & v & h' & w' & R & X3 & Q & P)|(b & args & af & rs & h3 & w3 & EQ & Q & NR)];
        [eapply only_adds_ext; eassumption|eapply cut_ext; eassumption|exact SG2|lia| |].
      * left. exists (r :: rs), v, h', w'. rewrite V. split; [exact R|]. split; [eapply ext_trans; eassumption|]. split.
        -- econstructor; [apply ext_refl|exact E|]. eapply runs_before; eassumption.
        -- cbn [rev] in P. rewrite <- app_assoc in P. exact P.
      * right. exists (map (hd Nil) xss :: b), args, af, (r :: rs), h3, w3. rewrite EQ. split; [reflexivity|]. split.
        -- econstructor; [apply ext_refl|exact E|]. eapply runs_before; eassumption.
        -- rewrite V. exact NR.
    + right. exists [], (map (hd Nil) xss), (first_rows n (map (@tl val) xss)), [], h, w. split; [reflexivity|]. split; [constructor; apply ext_refl|].
      left. split; [exact E|]. rewrite U. apply bind_not. exact E.
    + right. exists [], (map (hd Nil) xss), (first_rows n (map (@tl val) xss)), [], h, w. split; [reflexivity|]. split; [constructor; apply ext_refl|].
      right. split; [exact E|]. rewrite U. apply bind_not. exact E.
Qed.
Lemma map1_mapn : forall fuel (f : proc) x a h w, map1 fuel f x a h w = mapn fuel f [x] a h w.
Proof.
  induction fuel as [|fuel IH]; intros f x a h w; [reflexivity|]. cbn [map1 mapn existsb]. rewrite orb_false_r. destruct (is_null x); [reflexivity|].
  cbn [heads tails]. unfold mbind, ret, pair, cons_. destruct (head x h w) as [c h1 w1| |]; [|reflexivity..].
  destruct (f [c] h1 w1) as [r h2 w2| |]; [|reflexivity..].
  destruct (tail x _ w2) as [d h3 w3| |]; [|reflexivity..]. apply IH.
Qed.
Lemma map_ok : forall n h vs xss (f : proc) w fuel, only_adds h f -> cut h n vs xss -> n < fuel ->
  makes f (map_ fuel f vs) (first_rows n xss) (fun rs r h' => plist h' r rs) h w.
Proof.
  intros n h vs xss f w fuel T C F. pose proof (mapn_ok n h vs xss f Nil [] [] w fuel T C (seg_nil _ _) F) as K.
  destruct vs as [|v [|v' vs]]; [destruct C as (_ & _ & C); inversion C| |exact K].
  unfold makes in *. cbn [map_]. rewrite map1_mapn. exact K.
Qed.

(** for-each of one list *)
Lemma for_each1_ok : forall xs h v ps z (f : proc) w fuel, only_adds h f -> seg h v ps xs z -> ends h z -> length xs < fuel ->
  makes f (for_each1 fuel f v) (each xs) (fun _ _ _ => True) h w.
Proof.
  induction xs as [|x xs IH]; intros h v ps z f w fuel T SG En F; (destruct fuel as [|fuel]; [cbn in F; lia|]).
  - left. inversion SG; subst. exists [], tt, h, w. split; [|split; [apply ext_refl|split; [constructor; apply ext_refl|exact Logic.I]]].
    cbn [for_each1]. unfold mbind, pairq. assert (is_pair h z = false) as -> by (destruct z as [| |p]; [reflexivity..|]; destruct En as (o & Eo & Po); cbn; rewrite Eo; exact Po). reflexivity.
  - inversion SG as [|p ? d ps' ? ? E SG']; subst.
    assert (U : for_each1 (S fuel) f (Ptr p) h w = mbind (f [x]) (fun _ => mbind (tail (Ptr p)) (fun d => for_each1 fuel f d)) h w).
    { cbn [for_each1]. unfold mbind at 1, pairq. cbn [is_pair]. rewrite E. cbn [pairp]. erewrite bind_ret by (eapply head_seg; exact E). reflexivity. }
    unfold each. cbn [map]. destruct (f [x] h w) as [r h1 w1| |] eqn:Ef.
    + assert (X : ext h h1) by (eapply T; [apply ext_refl|exact Ef]).
      assert (V : for_each1 (S fuel) f (Ptr p) h w = for_each1 fuel f d h1 w1).
      { rewrite U. erewrite bind_ret by exact Ef. erewrite bind_ret by (eapply tail_seg; eapply ext_nth; eassumption). reflexivity. }
      destruct (IH h1 d ps' z f w1 fuel) as [(rs & v & h' & w' & R & X3 & Q & P)|(b & args & af & rs & h3 & w3 & EQ & Q & NR)];
        [eapply only_adds_ext; eassumption|eapply seg_ext; eassumption|eapply ends_ext; eassumption|cbn in F; lia| |].
      * left. exists (r :: rs), v, h', w'. rewrite V. split; [exact R|]. split; [eapply ext_trans; eassumption|]. split; [|exact Logic.I].
        econstructor; [apply ext_refl|exact Ef|exact Q].
      * right. exists ([x] :: b), args, af, (r :: rs), h3, w3. unfold each in EQ. rewrite EQ. split; [reflexivity|]. split; [|rewrite V; exact NR].
        econstructor; [apply ext_refl|exact Ef|exact Q].
    + right. exists [], [x], (each xs), [], h, w. split; [reflexivity|]. split; [constructor; apply ext_refl|].
      left. split; [exact Ef|]. rewrite U. apply bind_not. exact Ef.
    + right. exists [], [x], (each xs), [], h, w. split; [reflexivity|]. split; [constructor; apply ext_refl|].
      right. split; [exact Ef|]. rewrite U. apply bind_not. exact Ef.
Qed.
Lemma makes_then : forall A B (f : proc) (m : M A) (k : A -> M B) argss P Q h w,
  makes f m argss P h w -> (forall rs a h' w', P rs a h' -> exists b h2, k a h' w' = Ret b h2 w' /\ ext h' h2 /\ Q rs b h2) ->
  makes f (mbind m k) argss Q h w.
Proof.
  intros A B f m k argss P Q h w [(rs & a & h' & w' & R & X & U & HP)|(b & args & af & rs & h1 & w1 & EQ & U & NR)] K.
  - left. destruct (K rs a h' w' HP) as (b & h2 & R2 & X2 & HQ). exists rs, b, h2, w'. split; [erewrite bind_ret by exact R; exact R2|].
    split; [eapply ext_trans; eassumption|]. split; [|exact HQ]. clear - U X2. induction U; [constructor; eapply ext_trans; eassumption|econstructor; eauto].
  - right. exists b, args, af, rs, h1, w1. split; [exact EQ|]. split; [exact U|]. destruct NR as [(E1 & E2)|(E1 & E2)]; [left|right]; (split; [exact E1|]); apply bind_not; exact E2.
Qed.
Lemma makes_weak : forall A (f : proc) (m : M A) argss (P Q : list val -> A -> heap -> Prop) h w, makes f m argss P h w -> (forall rs a h', P rs a h' -> Q rs a h') -> makes f m argss Q h w.
Proof. intros A f m argss P Q h w [(rs & a & h' & w' & R & X & U & HP)|H] K; [left; exists rs, a, h', w'; auto|right; exact H]. Qed.
(** what is done before the calls *)
Lemma makes_after : forall A B (f : proc) (m : M B) (k : B -> M A) b argss P h w h1, m h w = Ret b h1 w -> ext h h1 -> makes f (k b) argss P h1 w -> makes f (mbind m k) argss P h w.
Proof.
  intros A B f m k b argss P h w h1 E X [(rs & a & h' & w' & R & X' & U & HP)|(bf & args & af & rs & h2 & w2 & EQ & U & NR)].
  - left. exists rs, a, h', w'. split; [erewrite bind_ret by exact E; exact R|]. split; [eapply ext_trans; eassumption|]. split; [eapply runs_before; eassumption|exact HP].
  - right. exists bf, args, af, rs, h2, w2. split; [exact EQ|]. split; [eapply runs_before; eassumption|]. unfold not_returned in *. erewrite (bind_ret _ _ m k) by exact E. exact NR.
Qed.
Lemma for_each_ok : forall n h vs xss (f : proc) w fuel, only_adds h f -> cut h n vs xss -> n < fuel ->
  makes f (for_each fuel f vs) (first_rows n xss) (fun _ _ _ => True) h w.
Proof.
  intros n h vs xss f w fuel T C F. destruct vs as [|v [|v' vs]]; [destruct C as (_ & _ & C); inversion C| |].
  - destruct C as (A & B & C). inversion C as [? ? (xs & (ps & SG) & L)|? ? C']; subst; [|inversion C'].
    inversion A as [|? xs' ? ? (ps' & z & SG') A']; subst. inversion A'; subst. inversion B as [|? ? L' _]; subst.
    assert (xs' = xs) as ->.
    { clear - SG SG' L'. revert v ps ps' xs' SG SG' L'. induction xs as [|x xs IH]; intros v ps ps' xs' SG SG' L'; [destruct xs'; [reflexivity|discriminate]|].
      destruct xs' as [|x' xs']; [discriminate|]. inversion SG as [|? ? ? ? ? ? E1 S1]; subst. inversion SG' as [|? ? ? ? ? ? E2 S2]; subst. rewrite E1 in E2. injection E2 as -> ->. f_equal. eapply IH; [exact S1|exact S2|]. cbn in L'. lia. }
    assert (first_rows (length xs) [xs] = each xs) as ->.
    { clear. unfold first_rows, each. cbn [map]. induction xs as [|x xs IH]; [reflexivity|]. cbn [length seq map nth]. f_equal. rewrite <- seq_shift, map_map. exact IH. }
    cbn [for_each]. eapply for_each1_ok; [exact T|exact SG|exact Logic.I|exact F].
  - cbn [for_each]. eapply makes_then; [eapply map_ok; eassumption|]. intros rs a h' w' _. exists tt, h'. split; [reflexivity|]. split; [apply ext_refl|exact Logic.I].
Qed.

(** ** Strings and vectors *)
Lemma elements_ok : forall xs h w, exists v h', elements xs h w = Ret v h' w /\ ext h h' /\ plist h' v xs.
Proof.
  induction xs as [|x xs IH]; intros h w; cbn [elements].
  - exists Nil, h. split; [reflexivity|]. split; [apply ext_refl|]. exists []. constructor.
  - destruct (IH h w) as (v & h' & R & X & ps & SG). erewrite bind_ret by exact R. rewrite pair_run. eexists _, _. split; [reflexivity|].
    split; [eapply ext_trans; [exact X|apply ext_snoc]|]. eexists. apply pair_seg. exact SG.
Qed.
Lemma all_elements_ok : forall xss h w, exists vs h', all_elements xss h w = Ret vs h' w /\ ext h h' /\ Forall2 (plist h') vs xss.
Proof.
  induction xss as [|xs xss IH]; intros h w; cbn [all_elements].
  - exists [], h. split; [reflexivity|]. split; [apply ext_refl|constructor].
  - destruct (elements_ok xs h w) as (v & h1 & R & X & ps & SG). erewrite bind_ret by exact R. destruct (IH h1 w) as (vs & h2 & R2 & X2 & P).
    erewrite bind_ret by exact R2. exists (v :: vs), h2. split; [reflexivity|]. split; [eapply ext_trans; eassumption|]. constructor; [exists ps; eapply seg_ext; eassumption|exact P].
Qed.
Lemma seg_firstn : forall h v ps xs z n, seg h v ps xs z -> exists ps' z', seg h v ps' (firstn n xs) z'.
Proof. intros h v ps xs z n SG. revert n. induction SG; intros [|n]; cbn [firstn]; try (eexists [], _; constructor). destruct (IHSG n) as (ps' & z' & S'). eexists _, _. econstructor; eassumption. Qed.
Lemma shortest_le : forall xss, Forall (fun xs => shortest xss <= length xs) xss.
Proof.
  induction xss as [|xs [|ys xss] IH]; [constructor|constructor; [cbn; lia|constructor]|].
  change (shortest (xs :: ys :: xss)) with (Nat.min (length xs) (shortest (ys :: xss))). constructor; [lia|]. eapply Forall_impl; [|exact IH]. cbv beta. intros. lia.
Qed.
Lemma shortest_in : forall xss, xss <> [] -> exists xs, In xs xss /\ length xs = shortest xss.
Proof.
  induction xss as [|xs [|ys xss] IH]; intros N; [contradiction|exists xs; split; [left|]; reflexivity|].
  change (shortest (xs :: ys :: xss)) with (Nat.min (length xs) (shortest (ys :: xss))). destruct IH as (zs & I1 & L); [discriminate|].
  destruct (Nat.min_dec (length xs) (shortest (ys :: xss))) as [->| ->]; [exists xs; split; [left|]; reflexivity|exists zs; split; [right; exact I1|exact L]].
Qed.
Lemma plists_cut : forall h vs xss, xss <> [] -> Forall2 (plist h) vs xss -> cut h (shortest xss) vs (map (firstn (shortest xss)) xss).
Proof.
  intros h vs xss N P. pose proof (shortest_le xss) as LE. destruct (shortest_in xss N) as (m & Im & Lm). revert LE Lm. generalize (shortest xss). clear N. intros n LE Lm. split; [|split].
  - clear - P. induction P as [|v xs vs xss (ps & SG) P IH]; cbn; constructor; [eapply seg_firstn; exact SG|exact IH].
  - apply Forall_map. eapply Forall_impl; [|exact LE]. cbv beta. intros xs L. rewrite firstn_length. lia.
  - clear LE. induction P as [|v xs vs xss SG P IH]; [contradiction|]. destruct Im as [<-|Im]; [left; eauto|right; auto].
Qed.
Lemma rows_firstn : forall xss, first_rows (shortest xss) (map (firstn (shortest xss)) xss) = rows xss.
Proof.
  intros xss. unfold first_rows, rows. apply map_ext_in. intros i Hi. apply in_seq in Hi. rewrite map_map. apply map_ext. intros xs.
  revert Hi. generalize (shortest xss). intros n Hi. clear xss. revert i xs Hi. induction n as [|n IH]; intros [|i] xs Hi; [lia..| |]; destruct xs as [|x xs]; cbn; try reflexivity. apply IH. lia.
Qed.
Lemma spread_ok : forall xs h v ps w fuel, seg h v ps xs Nil -> length xs < fuel -> spread fuel v h w = Ret xs h w.
Proof.
  induction xs as [|x xs IH]; intros h v ps w fuel SG F; (destruct fuel as [|fuel]; [cbn in F; lia|]); inversion SG as [|? ? ? ? ? ? E SG']; subst; cbn [spread is_null]; [reflexivity|].
  erewrite bind_ret by (eapply tail_seg; exact E). erewrite bind_ret by (eapply head_seg; exact E). erewrite bind_ret by (eapply IH; [exact SG'|cbn in F; lia]). reflexivity.
Qed.
Lemma sequence_map_ok : forall h xss (f : proc) w fuel, only_adds h f -> xss <> [] -> shortest xss < fuel ->
  makes f (sequence_map fuel f xss) (rows xss) (fun rs r _ => r = rs) h w.
Proof.
  intros h xss f w fuel T N F. destruct (all_elements_ok xss h w) as (vs & h1 & R & X & P). unfold sequence_map. eapply makes_after; [exact R|exact X|].
  rewrite <- rows_firstn. eapply makes_then; [eapply map_ok; [eapply only_adds_ext; eassumption|apply plists_cut; [exact N|exact P]|exact F]|].
  intros rs a h' w' (ps & SG). exists rs, h'. split; [|split; [apply ext_refl|reflexivity]]. unfold spread_all. eapply spread_ok; [exact SG|]. pose proof (seg_size _ _ _ _ SG). lia.
Qed.
Lemma sequence_for_each_ok : forall h xss (f : proc) w fuel, only_adds h f -> xss <> [] -> shortest xss < fuel ->
  makes f (sequence_for_each fuel f xss) (rows xss) (fun _ _ _ => True) h w.
Proof.
  intros h xss f w fuel T N F. destruct (all_elements_ok xss h w) as (vs & h1 & R & X & P). unfold sequence_for_each. eapply makes_after; [exact R|exact X|].
  rewrite <- rows_firstn. eapply for_each_ok; [eapply only_adds_ext; eassumption|apply plists_cut; [exact N|exact P]|exact F].
Qed.
End Proofs.
