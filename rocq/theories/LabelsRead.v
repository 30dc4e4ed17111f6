(** Proofs about reading data with labels (Labels.v). *)
From Coq Require Import ZArith List Bool Arith Lia.
From Verif Require Import Lists ListPredicates Labels LabelsSpec LabelsProofs LabelsShared.
Import ListNotations.

Scheme spells_mut := Induction for spells Sort Prop
  with spells_rest_mut := Induction for spells_rest Sort Prop
  with spells_all_mut := Induction for spells_all Sort Prop.
Combined Scheme spells_ind3 from spells_mut, spells_rest_mut, spells_all_mut.

Definition agree (h k : store) (lo hi : nat) : Prop := forall q, lo <= q < hi -> nth_error k q = nth_error h q.
(** A form that depends on the objects from lo to hi only *)
Definition local (h : store) (lo hi : nat) (v : val) (f : form) : Prop := forall k y, agree h k lo hi -> has_form k y v f.
(** An object of a form with holes, whose pairs and vectors are all at addresses from lo to hi,
    every one at its own address; atoms are at addresses below b *)
Inductive tree (h : store) (x : val) (b : nat) : nat -> nat -> val -> form -> Prop :=
| T_atom : forall lo hi v, lo <= hi -> atomic h v -> (forall p, v = Ptr p -> p < b) -> tree h x b lo hi v (FAtom v)
| T_nil : forall lo hi, lo <= hi -> tree h x b lo hi Nil FNil
| T_pair : forall lo mi p hi a d fa fd, tree h x b lo mi a fa -> fa <> FHole -> tree h x b mi p d fd -> p < hi ->
    nth_error h p = Some (Cons a d) -> tree h x b lo hi (Ptr p) (FPair fa fd)
| T_vec : forall lo p hi vs fs, nth_error h p = Some (Vector vs) -> lo <= p < hi -> local h lo hi (Ptr p) (FVec fs) -> tree h x b lo hi (Ptr p) (FVec fs)
| T_hole : forall lo hi, lo <= hi -> tree h x b lo hi x FHole.
Lemma tree_le : forall h x b lo hi v f, tree h x b lo hi v f -> lo <= hi.
Proof. induction 1; lia. Qed.
Lemma agree_sub : forall h k lo hi lo' hi', agree h k lo hi -> lo <= lo' -> hi' <= hi -> agree h k lo' hi'.
Proof. intros h k lo hi lo' hi' A L M q Q. apply A. lia. Qed.
Lemma local_agree : forall h k lo hi v f, local h lo hi v f -> agree h k lo hi -> local k lo hi v f.
Proof. intros h k lo hi v f L A j y B. apply L. intros q Q. rewrite (B q Q). apply A, Q. Qed.
Lemma atomic_agree : forall h k b v, atomic h v -> (forall p, v = Ptr p -> p < b) -> agree h k 0 b -> atomic k v.
Proof.
  intros h k b v A L G. destruct A as [i|p n E|p E].
  - constructor.
  - eapply Atomic_text. rewrite G; [exact E|]. specialize (L p eq_refl). lia.
  - eapply Atomic_other. rewrite G; [exact E|]. specialize (L p eq_refl). lia.
Qed.
Lemma tree_agree : forall h k x b lo hi v f, tree h x b lo hi v f -> agree h k lo hi -> agree h k 0 b -> tree k x b lo hi v f.
Proof.
  induction 1 as [lo hi v L A B|lo hi L|lo mi p hi a d fa fd T1 IH1 N T2 IH2 L E|lo p hi vs fs E L LV|lo hi L]; intros G G0.
  - constructor; auto. eapply atomic_agree; eassumption.
  - constructor. exact L.
  - pose proof (tree_le _ _ _ _ _ _ _ T1). pose proof (tree_le _ _ _ _ _ _ _ T2).
    apply (T_pair k x b lo mi p hi a d fa fd); auto.
    + apply IH1; [|exact G0]. eapply agree_sub; [exact G|lia|lia].
    + apply IH2; [|exact G0]. eapply agree_sub; [exact G|lia|lia].
    + rewrite G; [exact E|lia].
  - eapply T_vec; [rewrite G; [exact E|lia]|exact L|eapply local_agree; eassumption].
  - constructor. exact L.
Qed.
Lemma tree_wide : forall h x b lo hi v f, tree h x b lo hi v f -> forall lo' hi', lo' <= lo -> hi <= hi' -> tree h x b lo' hi' v f.
Proof.
  induction 1 as [lo hi v L A B|lo hi L|lo mi p hi a d fa fd T1 IH1 N T2 IH2 L E|lo p hi vs fs E L LV|lo hi L]; intros lo' hi' L1 L2.
  - constructor; auto. lia.
  - constructor. lia.
  - apply (T_pair h x b lo' mi p hi' a d fa fd); auto; lia.
  - eapply T_vec; [exact E|lia|]. intros k y A. apply LV. eapply agree_sub; [exact A|lia|lia].
  - constructor. lia.
Qed.
Lemma tree_form : forall h x b lo hi v f, tree h x b lo hi v f -> forall k, agree h k lo hi -> has_form k x v f.
Proof.
  induction 1 as [lo hi v L A B|lo hi L|lo mi p hi a d fa fd T1 IH1 N T2 IH2 L E|lo p hi vs fs E L LV|lo hi L]; intros k G; try constructor.
  - pose proof (tree_le _ _ _ _ _ _ _ T1). pose proof (tree_le _ _ _ _ _ _ _ T2).
    apply (Has_pair k x p a d); [rewrite G; [exact E|lia]| |].
    + apply IH1. eapply agree_sub; [exact G|lia|lia].
    + apply IH2. eapply agree_sub; [exact G|lia|lia].
  - apply LV, G.
Qed.

(** ** circulate *)
Lemma update_length : forall h p o, length (update h p o) = length h.
Proof. induction h as [|x h IH]; intros [|p] o; cbn; auto. Qed.
Lemma update_same : forall h p o, p < length h -> nth_error (update h p o) p = Some o.
Proof. induction h as [|x h IH]; intros [|p] o L; cbn in *; try lia; auto. apply IH. lia. Qed.
Lemma update_other : forall h p o q, q <> p -> nth_error (update h p o) q = nth_error h q.
Proof. induction h as [|x h IH]; intros [|p] o [|q] N; cbn; try congruence; auto. Qed.
Lemma not_label : forall h x b n lo hi v f, tree h x b lo hi v f -> f <> FHole -> is_label h n v = false.
Proof.
  intros h x b n lo hi v f T N. destruct T as [lo hi v L A B|lo hi L|lo mi p hi a d fa fd T1 NH T2 L E|lo p hi vs fs E L LV|lo hi L].
  - destruct A as [i|p m E|p E]; cbn; try rewrite E; reflexivity.
  - reflexivity.
  - cbn. rewrite E. reflexivity.
  - cbn. rewrite E. reflexivity.
  - congruence.
Qed.
Lemma circulate_ok : forall n p0 b h lo hi v f, tree h (Ptr p0) b lo hi v f -> f <> FHole -> nth_error h p0 = Some (Label n) ->
  p0 < lo -> b <= lo -> forall x, exists f0 h1, (forall fuel, f0 <= fuel -> circulate fuel h v x n = Done h1) /\ length h1 = length h /\
    (forall q, q < lo \/ hi <= q -> nth_error h1 q = nth_error h q) /\ tree h1 x b lo hi v f.
Proof.
  intros n p0 b. intros h lo hi v f T. revert h lo hi v T. induction f as [v0| |fa IHa fd IHd|fs| |m f IHf]; intros h lo hi v T N Lb L0 Lb' x.
  - inversion T; subst. exists 1, h. repeat split; auto; [|constructor; auto]. intros [|fuel] LF; [lia|]. cbn [circulate].
    match goal with A : atomic h _ |- _ => destruct A as [i|p k E|p E] end; try rewrite E; reflexivity.
  - inversion T; subst. exists 1, h. repeat split; auto; [|constructor; auto]. intros [|fuel] LF; [lia|]. reflexivity.
  - inversion T as [| |? mi p ? a d ? ? T1 Na T2 Lp E| |]; subst.
    pose proof (tree_le _ _ _ _ _ _ _ T1) as Le1. pose proof (tree_le _ _ _ _ _ _ _ T2) as Le2.
    destruct (IHa h lo mi a T1 Na Lb L0 Lb' x) as (f1 & h1 & C1 & Len1 & Out1 & T1').
    assert (E1 : nth_error h1 p = Some (Cons a d)) by (rewrite Out1; [exact E|lia]).
    assert (Lb1 : nth_error h1 p0 = Some (Label n)) by (rewrite Out1; [exact Lb|lia]).
    assert (T2' : tree h1 (Ptr p0) b mi p d fd).
    { eapply tree_agree; [exact T2| |]; intros q Q; apply Out1; lia. }
    assert (Dec : fd = FHole \/ fd <> FHole) by (destruct fd; auto; right; discriminate).
    destruct Dec as [-> | Nd].
    + inversion T2'; subst. exists (S f1), (update h1 p (Cons a x)). repeat split.
      * intros [|fuel] LF; [lia|]. cbn [circulate]. rewrite E, C1 by lia. cbn [rbind]. rewrite E1. cbn [is_label]. rewrite Lb1, Nat.eqb_refl. reflexivity.
      * rewrite update_length. exact Len1.
      * intros q Q. rewrite update_other by lia. apply Out1. lia.
      * apply (T_pair _ x b lo mi p hi a x fa FHole); auto.
        -- eapply tree_agree; [exact T1'| |]; intros q Q; apply update_other; lia.
        -- constructor. exact Le2.
        -- apply update_same. apply nth_error_Some. congruence.
    + destruct (IHd h1 mi p d T2' Nd Lb1 ltac:(lia) ltac:(lia) x) as (f2 & h2 & C2 & Len2 & Out2 & T2'').
      exists (S (f1 + f2)), h2. repeat split.
      * intros [|fuel] LF; [lia|]. cbn [circulate]. rewrite E, C1 by lia. cbn [rbind]. rewrite E1, (not_label _ _ _ n _ _ _ _ T2' Nd). apply C2. lia.
      * congruence.
      * intros q Q. rewrite Out2 by lia. apply Out1. lia.
      * apply (T_pair _ x b lo mi p hi a d fa fd); auto.
        -- eapply tree_agree; [exact T1'| |]; intros q Q; apply Out2; lia.
        -- rewrite Out2; [exact E1|lia].
  - inversion T; subst. exists 1, h. repeat split; auto; [|eapply T_vec; eassumption]. intros [|fuel] LF; [lia|]. cbn [circulate].
    match goal with E : nth_error h _ = Some (Vector _) |- _ => rewrite E end. reflexivity.
  - congruence.
  - inversion T.
Qed.

(** ** read *)
Definition keeps (s s' : port) : Prop :=
  labels s' = labels s /\ length (heap_of s) <= length (heap_of s') /\ agree (heap_of s) (heap_of s') 0 (length (heap_of s)).
Lemma keeps_trans : forall a b c, keeps a b -> keeps b c -> keeps a c.
Proof.
  intros a b c (L1 & N1 & A1) (L2 & N2 & A2). split; [congruence|]. split; [lia|]. intros q Q. rewrite A2 by lia. apply A1. lia.
Qed.
Lemma keeps_alloc : forall s o, keeps s (Port (heap_of s ++ [o]) (labels s)).
Proof.
  intros s o. split; [reflexivity|]. cbn. split; [rewrite app_length; lia|]. intros q Q. apply nth_error_app1. lia.
Qed.
Definition ready (k : place) (s : port) : Prop :=
  match k with
  | Outside => labels s = []
  | Inside n => exists p0, labels s = [(n, p0)] /\ nth_error (heap_of s) p0 = Some (Label n)
  | Shut => True
  end.
Definition hole_of (s : port) : val := match labels s with (_, p) :: _ => Ptr p | [] => Nil end.
Definition result (k : place) (b : nat) (s s' : port) (v : val) (f : form) : Prop :=
  match k with
  | Inside n => tree (heap_of s') (hole_of s) b (length (heap_of s)) (length (heap_of s')) v f
  | _ => local (heap_of s') (length (heap_of s)) (length (heap_of s')) v f
  end.
Definition reads (mode : bool) (s : port) (ts : list token) (v : val) (s' : port) (rest : list token) : Prop :=
  exists f0, forall fuel, f0 <= fuel -> read fuel mode s ts = Done (Got v, s', rest).
Lemma ready_keeps : forall k s s', ready k s -> keeps s s' -> ready k s'.
Proof.
  intros [|n|] s s' R (L & N & A); cbn in *; [congruence| |exact I]. destruct R as (p0 & Ls & E). exists p0. split; [congruence|].
  rewrite A; [exact E|]. split; [lia|]. apply nth_error_Some. congruence.
Qed.
Lemma hole_keeps : forall s s', keeps s s' -> hole_of s' = hole_of s.
Proof. intros s s' (L & _). unfold hole_of. rewrite L. reflexivity. Qed.
(** Allocating the pair of two parts *)
Lemma cons_result : forall k b s s1 s2 a d fa fd, keeps s s1 -> keeps s1 s2 -> b <= length (heap_of s) -> fa <> FHole ->
  result k b s s1 a fa -> result k b s1 s2 d fd ->
  result k b s (Port (heap_of s2 ++ [Cons a d]) (labels s2)) (Ptr (length (heap_of s2))) (FPair fa fd).
Proof.
  intros k b s s1 s2 a d fa fd K1 K2 B N R1 R2. pose proof (hole_keeps _ _ K1) as Hh.
  destruct K1 as (L1 & N1 & A1), K2 as (L2 & N2 & A2).
  assert (Ep : nth_error (heap_of s2 ++ [Cons a d]) (length (heap_of s2)) = Some (Cons a d)).
  { rewrite nth_error_app2 by lia. rewrite Nat.sub_diag. reflexivity. }
  assert (A3 : agree (heap_of s2) (heap_of s2 ++ [Cons a d]) 0 (length (heap_of s2))).
  { intros q Q. apply nth_error_app1. lia. }
  assert (Loc : local (heap_of s1) (length (heap_of s)) (length (heap_of s1)) a fa -> local (heap_of s2) (length (heap_of s1)) (length (heap_of s2)) d fd ->
    local (heap_of s2 ++ [Cons a d]) (length (heap_of s)) (length (heap_of s2 ++ [Cons a d])) (Ptr (length (heap_of s2))) (FPair fa fd)).
  { intros La Ld h' y A. rewrite app_length in A. cbn in A. apply (Has_pair h' y _ a d).
    - rewrite A; [exact Ep|lia].
    - apply La. intros q Q. rewrite A by lia. rewrite A3 by lia. apply A2. lia.
    - apply Ld. intros q Q. rewrite A by lia. apply A3. lia. }
  destruct k as [|n|]; cbn [result] in *; cbn [heap_of].
  - apply Loc; assumption.
  - rewrite app_length. cbn. apply (T_pair _ _ b _ (length (heap_of s1)) _ _ a d fa fd); auto; try lia.
    + eapply tree_agree; [exact R1| |].
      * intros q Q. rewrite A3 by lia. apply A2. lia.
      * intros q Q. rewrite A3 by lia. apply A2. lia.
    + rewrite Hh in R2. eapply tree_agree; [exact R2| |]; intros q Q; apply A3; lia.
  - apply Loc; assumption.
Qed.
Definition rests (s : port) (ts : list token) (vs : list val) (v : val) (s' : port) : Prop :=
  forall k, agree (heap_of s') k (length (heap_of s)) (length (heap_of s')) -> forall fuel, length vs < fuel -> items fuel k v = Done vs.
Lemma step_read : forall k b ts us a d rest s s1 s2 v fa fd,
  reads false s (ts ++ us ++ rest) v s1 (us ++ rest) -> reads true s1 (us ++ rest) d s2 rest ->
  keeps s s1 -> keeps s1 s2 -> b <= length (heap_of s) -> fa <> FHole -> v = a -> result k b s s1 a fa -> result k b s1 s2 d fd ->
  exists p s3, reads true s (ts ++ us ++ rest) p s3 rest /\ keeps s s3 /\ result k b s s3 p (FPair fa fd).
Proof.
  intros k b ts us a d rest s s1 s2 v fa fd (f1 & H1) (f2 & H2) K1 K2 B N -> R1 R2.
  exists (Ptr (length (heap_of s2))), (Port (heap_of s2 ++ [Cons a d]) (labels s2)). split; [|split].
  - exists (S (f1 + f2)). intros [|fuel] L; [lia|]. cbn [read]. rewrite H1 by lia. cbn [rbind]. rewrite H2 by lia. reflexivity.
  - eapply keeps_trans; [exact K1|]. eapply keeps_trans; [exact K2|]. apply keeps_alloc.
  - eapply cons_result; eassumption.
Qed.
Definition based (h0 : store) (s : port) : Prop := length h0 <= length (heap_of s) /\ agree h0 (heap_of s) 0 (length h0).
Lemma based_keeps : forall h0 s s', based h0 s -> keeps s s' -> based h0 s'.
Proof. intros h0 s s' (L & A) (_ & N & B). split; [lia|]. intros q Q. rewrite B by lia. apply A, Q. Qed.
Lemma spelled_no_hole : forall k ts f, spells k ts f -> f <> FHole.
Proof. intros k ts f H. destruct H; discriminate. Qed.
Lemma atomic_bound : forall h v, atomic h v -> forall p, v = Ptr p -> p < length h.
Proof. intros h v [i|q n E|q E] p [= <-]; apply nth_error_Some; congruence. Qed.

Lemma read_dot : forall fuel s ts v s1 rest, read (S fuel) false s ts = Done (Got v, s1, TClose :: rest) ->
  read (S (S fuel)) true s (TDot :: ts) = Done (Got v, s1, rest).
Proof.
  intros fuel s ts v s1 rest H.
  change (read (S (S fuel)) true s (TDot :: ts)) with
    ('(x, s, ts) <- read (S fuel) false s ts;
     match x with
     | Got v => match skip ts with Some ts => Done (Got v, s, ts) | None => Done (Fails, s, ts) end
     | _ => Done (x, s, ts)
     end).
  rewrite H. reflexivity.
Qed.
Lemma read_spelled : forall h0,
  (forall k ts f, spells k ts f -> atoms_in h0 f -> forall s rest, ready k s -> based h0 s ->
     exists v s', reads false s (ts ++ rest) v s' rest /\ keeps s s' /\ result k (length h0) s s' v f) /\
  (forall k ts f, spells_rest k ts f -> atoms_in h0 f -> forall s rest, ready k s -> based h0 s ->
     exists v s', reads true s (ts ++ rest) v s' rest /\ keeps s s' /\ result k (length h0) s s' v f) /\
  (forall k ts fs, spells_all k ts fs -> (k = Outside \/ k = Shut) -> (forall f, In f fs -> atoms_in h0 f) -> forall s rest, ready k s -> based h0 s ->
     exists v s' vs, reads true s (ts ++ TClose :: rest) v s' rest /\ keeps s s' /\ rests s ts vs v s' /\
       length (heap_of s) + length vs <= length (heap_of s') /\
       forall h' y, agree (heap_of s') h' (length (heap_of s)) (length (heap_of s')) -> have_forms h' y vs fs).
Proof.
  intros h0. apply spells_ind3.
  - (* atom *)
    intros k v A s rest R (B1 & B2). inversion A as [? Av| | | | |]; subst. exists v, s.
    assert (K : keeps s s) by (split; [reflexivity|]; split; [lia|]; intros q Q; reflexivity).
    split; [exists 1; intros [|fuel] L; [lia|]; reflexivity|]. split; [exact K|].
    destruct k as [|n|]; cbn [result]; try (intros h' y G; constructor).
    constructor; [lia| |exact (atomic_bound _ _ Av)]. exact (atomic_agree _ _ _ _ Av (atomic_bound _ _ Av) B2).
  - (* () *)
    intros k _ s rest R B. exists Nil, s.
    assert (K : keeps s s) by (split; [reflexivity|]; split; [lia|]; intros q Q; reflexivity).
    split; [exists 3; intros [|[|[|fuel]]] L; try lia; reflexivity|]. split; [exact K|].
    destruct k as [|n|]; cbn [result]; try (intros h' y G; constructor). constructor. lia.
  - (* pair *)
    intros k ts us a d Sa IHa Sd IHd A s rest R B. inversion A; subst.
    destruct (IHa ltac:(assumption) s (us ++ rest) R B) as (va & s1 & R1 & K1 & X1).
    destruct (IHd ltac:(assumption) s1 rest (ready_keeps _ _ _ R K1) (based_keeps _ _ _ B K1)) as (vd & s2 & R2 & K2 & X2).
    destruct (step_read k (length h0) ts us va vd rest s s1 s2 va a d R1 R2 K1 K2 (proj1 B) (spelled_no_hole _ _ _ Sa) eq_refl X1 X2) as (p & s3 & (f & R3) & K3 & X3).
    exists p, s3. split; [|auto]. exists (S f). intros [|fuel] L; [lia|]. cbn [app read]. rewrite <- app_assoc. apply R3. lia.
  - (* vector *)
    intros k ts fs Sv IH A s rest R B. inversion A; subst.
    destruct (IH) with (s := s) (rest := rest) as (v & s1 & vs & (f & R1) & K1 & It & Len & Fs); auto.
    { destruct k; cbn; auto. } { destruct k; cbn in *; auto. }
    exists (Ptr (length (heap_of s1))), (Port (heap_of s1 ++ [Vector vs]) (labels s1)).
    assert (Ep : nth_error (heap_of s1 ++ [Vector vs]) (length (heap_of s1)) = Some (Vector vs)).
    { rewrite nth_error_app2 by lia. rewrite Nat.sub_diag. reflexivity. }
    assert (Loc : local (heap_of s1 ++ [Vector vs]) (length (heap_of s)) (length (heap_of s1 ++ [Vector vs])) (Ptr (length (heap_of s1))) (FVec fs)).
    { destruct K1 as (_ & N1 & _). intros h' y G. rewrite app_length in G. cbn in G. eapply Has_vec; [rewrite G; [exact Ep|lia]|].
      apply Fs. intros q Q. rewrite G by lia. apply nth_error_app1. lia. }
    split; [|split].
    + exists (S f). intros [|fuel] L; [lia|]. cbn [app read]. rewrite <- app_assoc. cbn [app]. rewrite R1 by lia. cbn [rbind].
      rewrite (It (heap_of s1)) by (try (intros q Q; reflexivity); lia). reflexivity.
    + eapply keeps_trans; [exact K1|]. apply keeps_alloc.
    + destruct k as [|n|]; cbn [result heap_of]; try exact Loc. destruct K1 as (_ & N1 & _).
      eapply T_vec; [exact Ep| |exact Loc]. rewrite app_length. cbn. lia.
  - (* a label *)
    intros n ts f Sf IH A s rest R B. inversion A; subst. cbn in R.
    set (s0 := Port (heap_of s ++ [Label n]) ((n, length (heap_of s)) :: labels s)).
    assert (El : nth_error (heap_of s0) (length (heap_of s)) = Some (Label n)).
    { cbn. rewrite nth_error_app2 by lia. rewrite Nat.sub_diag. reflexivity. }
    assert (B0 : based h0 s0).
    { destruct B as (B1 & B2). split; cbn; [rewrite app_length; lia|]. intros q Q. rewrite nth_error_app1 by lia. apply B2, Q. }
    destruct (IH ltac:(assumption) s0 rest) as (v & s1 & (f1 & R1) & K1 & X); [|exact B0|].
    { exists (length (heap_of s)). cbn. rewrite R. auto. }
    cbn [result] in X. unfold hole_of in X. cbn [labels s0] in X.
    destruct K1 as (L1 & N1 & A1). cbn in N1. rewrite app_length in N1. cbn in N1.
    assert (Hs0 : length (heap_of s0) = S (length (heap_of s))) by (cbn; rewrite app_length; cbn; lia).
    rewrite Hs0 in *.
    destruct (circulate_ok n (length (heap_of s)) (length h0) (heap_of s1) (S (length (heap_of s))) (length (heap_of s1)) v f X (spelled_no_hole _ _ _ Sf)) with (x := v)
      as (f2 & h1 & C & Len & Out & X1).
    { rewrite A1; [exact El|lia]. } { lia. } { destruct B. lia. }
    assert (Nv : veq v (Ptr (length (heap_of s))) = false).
    { destruct (veq v (Ptr (length (heap_of s)))) eqn:Ev; [|reflexivity]. exfalso. apply veq_iff in Ev. subst v.
      pose proof (spelled_no_hole _ _ _ Sf) as NH. inversion X as [? ? ? ? ? Bd|?|? ? ? ? ? ? ? ? T1 ? T2 ?|? ? ? ? ? ? ? ?|]; subst; try congruence.
      - specialize (Bd _ eq_refl). destruct B. lia.
      - pose proof (tree_le _ _ _ _ _ _ _ T1). pose proof (tree_le _ _ _ _ _ _ _ T2). lia.
      - lia. }
    assert (Er : erase n (labels s1) = []).
    { rewrite L1. cbn. rewrite R, Nat.eqb_refl. reflexivity. }
    exists v, (Port h1 []). split; [|split].
    + exists (S (f1 + f2)). intros [|fuel] L; [lia|]. cbn [app read]. rewrite R at 1. cbn [declared]. fold s0. rewrite R1 by lia. cbn [rbind].
      rewrite Nv, C by lia. cbn [rbind]. rewrite Er. reflexivity.
    + split; [cbn; congruence|]. cbn [heap_of]. split; [lia|]. intros q Q. rewrite Out by lia. rewrite A1 by lia. cbn. apply nth_error_app1. lia.
    + cbn [result heap_of]. intros h' y G. apply Has_lab. eapply tree_form; [exact X1|]. intros q Q. apply G. lia.
  - (* ) *)
    intros k _ s rest R B. exists Nil, s.
    assert (K : keeps s s) by (split; [reflexivity|]; split; [lia|]; intros q Q; reflexivity).
    split; [exists 2; intros [|[|fuel]] L; try lia; reflexivity|]. split; [exact K|].
    destruct k as [|n|]; cbn [result]; try (intros h' y G; constructor). constructor. lia.
  - (* . x ) *)
    intros k ts f Sf IH A s rest R B. destruct (IH A s (TClose :: rest) R B) as (v & s1 & (f1 & R1) & K1 & X).
    exists v, s1. split; [|auto]. exists (S (S f1)). intros [|[|fuel]] L; try lia. cbn [app]. rewrite <- app_assoc. cbn [app].
    apply read_dot. apply R1. lia.
  - (* . #n# ) *)
    intros n _ s rest (p0 & Ls & El) B. exists (Ptr p0), s.
    assert (K : keeps s s) by (split; [reflexivity|]; split; [lia|]; intros q Q; reflexivity).
    split; [|split; [exact K|]].
    + exists 2. intros [|[|fuel]] L; try lia. cbn. rewrite Ls. cbn. rewrite Nat.eqb_refl. reflexivity.
    + cbn [result]. unfold hole_of. rewrite Ls. constructor. lia.
  - (* one more element *)
    intros k ts us a d Sa IHa Sd IHd A s rest R B. inversion A; subst.
    destruct (IHa ltac:(assumption) s (us ++ rest) R B) as (va & s1 & R1 & K1 & X1).
    destruct (IHd ltac:(assumption) s1 rest (ready_keeps _ _ _ R K1) (based_keeps _ _ _ B K1)) as (vd & s2 & R2 & K2 & X2).
    destruct (step_read k (length h0) ts us va vd rest s s1 s2 va a d R1 R2 K1 K2 (proj1 B) (spelled_no_hole _ _ _ Sa) eq_refl X1 X2) as (p & s3 & R3 & K3 & X3).
    exists p, s3. rewrite <- app_assoc. auto.
  - (* no elements *)
    intros k _ _ s rest R B. exists Nil, s, [].
    assert (K : keeps s s) by (split; [reflexivity|]; split; [lia|]; intros q Q; reflexivity).
    split; [exists 2; intros [|[|fuel]] L; try lia; reflexivity|]. split; [exact K|]. split; [|split].
    + intros k' G [|fuel] L; [cbn in L; lia|]. reflexivity.
    + cbn. lia.
    + intros h' y G. constructor.
  - (* elements *)
    intros k ts f us fs Sf IHf Sfs IHfs KK A s rest R B.
    destruct (IHf (A f (or_introl eq_refl)) s (us ++ TClose :: rest) R B) as (va & s1 & (f1 & R1) & K1 & X1).
    destruct (IHfs KK (fun g I => A g (or_intror I)) s1 rest (ready_keeps _ _ _ R K1) (based_keeps _ _ _ B K1)) as (vd & s2 & vs & (f2 & R2) & K2 & It & Len & Fs).
    assert (X1' : local (heap_of s1) (length (heap_of s)) (length (heap_of s1)) va f) by (destruct KK as [-> | ->]; exact X1).
    destruct K1 as (L1 & N1 & A1) eqn:EK1. destruct K2 as (L2 & N2 & A2) eqn:EK2.
    assert (Ep : nth_error (heap_of s2 ++ [Cons va vd]) (length (heap_of s2)) = Some (Cons va vd)).
    { rewrite nth_error_app2 by lia. rewrite Nat.sub_diag. reflexivity. }
    exists (Ptr (length (heap_of s2))), (Port (heap_of s2 ++ [Cons va vd]) (labels s2)), (va :: vs).
    assert (G2 : forall k', agree (heap_of s2 ++ [Cons va vd]) k' (length (heap_of s)) (length (heap_of s2 ++ [Cons va vd])) ->
      agree (heap_of s2) k' (length (heap_of s)) (length (heap_of s2)) /\ nth_error k' (length (heap_of s2)) = Some (Cons va vd)).
    { intros k' G. rewrite app_length in G. cbn in G. split.
      - intros q Q. rewrite G by lia. apply nth_error_app1. lia.
      - rewrite G; [exact Ep|lia]. }
    split; [|split; [|split; [|split]]].
    + exists (S (f1 + f2)). intros [|fuel] L; [lia|]. rewrite <- app_assoc. cbn [read]. rewrite R1 by lia. cbn [rbind]. rewrite R2 by lia. reflexivity.
    + eapply keeps_trans; [exact K1|]. eapply keeps_trans; [exact K2|]. apply keeps_alloc.
    + intros k' G [|fuel] L; [cbn in L; lia|]. destruct (G2 k' G) as (G3 & E3). cbn [items]. rewrite E3. rewrite It; [reflexivity| |cbn in L; lia].
      intros q Q. apply G3. lia.
    + cbn [heap_of]. rewrite app_length. cbn. lia.
    + intros h' y G. destruct (G2 h' G) as (G3 & E3). constructor.
      * apply X1'. intros q Q. rewrite G3 by lia. apply A2. lia.
      * apply Fs. intros q Q. apply G3. lia.
Qed.
Theorem read_labels : forall ts f s rest, spells Outside ts f -> atoms_in (heap_of s) f -> labels s = [] ->
  exists v h f0, (forall fuel, f0 <= fuel -> read_datum fuel s (ts ++ rest) = Done (Got v, Port h [], rest)) /\
    (forall q, q < length (heap_of s) -> nth_error h q = nth_error (heap_of s) q) /\ forall y, has_form h y v f.
Proof.
  intros ts f s rest Sp A L. destruct (read_spelled (heap_of s)) as (H & _).
  destruct (H Outside ts f Sp A s rest L) as (v & s' & (f0 & R) & (Ls & N & G) & X).
  { split; [lia|]. intros q Q. reflexivity. }
  destruct s' as (h & ls). cbn in Ls. rewrite L in Ls. subst ls. exists v, h, f0. split; [exact R|]. split.
  - intros q Q. apply G. cbn. lia.
  - intros y. apply X. intros q Q. reflexivity.
Qed.
