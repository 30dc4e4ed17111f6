(** Correctness of the collector. *)
From Coq Require Import NArith ZArith List Bool Lia Sorted ZifyBool ZifyNat ZifyN.
From Verif Require Import PointerSet PointerSetProofs PointerSetLevels PointerSetNode PointerSetTop Collector.
Import ListNotations.
Open Scope N_scope.

(** ** The pointer set, seen through its abstract set *)
Section Abstract.
  Variable w : N.
  Notation oob := (Some w).

  Lemma R_contains s m a : reps w s m -> addr a -> ps_contains oob s a = Some (m a).
  Proof. apply contains_ok. Qed.

  Lemma R_insert s m a : reps w s m -> addr a -> m a = false ->
    exists s', ps_insert oob s a = Some s' /\ reps w s' (after m (Insert a)).
  Proof.
    intros Hr Ha Hm. destruct (reps_step w s m (Insert a) Hr (conj Ha Hm)) as [s' [H1 [H2 _]]].
    exists s'. auto.
  Qed.

  Lemma R_erase s m a : reps w s m -> m a = true ->
    exists s', ps_erase oob s a = Some s' /\ reps w s' (after m (Erase a)).
  Proof.
    intros Hr Hm. assert (Ha : addr a) by (destruct Hr as [_ [_ Hr]]; apply Hr; exact Hm).
    destruct (reps_step w s m (Erase a) Hr (conj Ha Hm)) as [s' [H1 [H2 _]]].
    exists s'. auto.
  Qed.

  Lemma R_addr s m a : reps w s m -> m a = true -> addr a.
  Proof. intros [_ [_ H]]. apply H. Qed.

  Lemma R_size s m : reps w s m -> card m (ps_size s).
  Proof.
    intros Hr. destruct (elements_ok w s m Hr) as [l [_ [H2 [H3 H4]]]].
    exists l. split; [|split; assumption]. clear - H2.
    induction H2 as [|a l H IH Hf]; constructor; [|assumption].
    intros Hin. rewrite Forall_forall in Hf. apply Hf in Hin. lia.
  Qed.

  Lemma card_unique P n n' : card P n -> card P n' -> n = n'.
  Proof.
    intros [l [H1 [H2 H3]]] [l' [H1' [H2' H3']]].
    assert (length l <= length l')%nat by (apply NoDup_incl_length; [exact H1|]; intros x Hx; apply H2', H2; exact Hx).
    assert (length l' <= length l)%nat by (apply NoDup_incl_length; [exact H1'|]; intros x Hx; apply H2, H2'; exact Hx).
    lia.
  Qed.

  Lemma range_go s m : reps w s m -> forall fuel it last i j c cl n,
    is_least_ge (ss_mem (top_spec w) s) i c -> ss_cur (top_spec w) s it c ->
    is_least_ge (ss_mem (top_spec w) s) j cl -> ss_cur (top_spec w) s last cl -> i <= j ->
    card (from (ss_mem (top_spec w) s) i) n -> n < N.of_nat fuel ->
    exists l, ps_range oob fuel s it last = Some l /\
      (forall a, In a l <-> m a = true /\ 8 * i <= a < 8 * j).
  Proof.
    intros Hr. assert (Hr' := Hr). destruct Hr' as [Hi [Hm Ha]].
    induction fuel as [|fuel IH]; intros it last i j c cl n Hl Hc Hll Hcl Hij Hcard Hf; [lia|].
    cbn [ps_range]. unfold ps_eq. rewrite (ss_eq _ _ (top_spec w) s it last c cl Hc Hcl).
    assert (Hun : forall y, m y = true -> exists z, y = 8 * z /\ ss_mem (top_spec w) s z = true).
    { intros y Hy. destruct (addr_index y (Ha y Hy)) as [_ E]. exists (N.shiftr y 3).
      split; [exact E|]. rewrite Hm, <- E. exact Hy. }
    destruct c as [x|]; [destruct cl as [y|]; [destruct (N.eqb_spec x y) as [<-|Hne]|]|].
    - exists []. split; [reflexivity|]. intros a. split; [intros []|]. intros [H1 H2].
      destruct (Hun a H1) as [z [-> Hz]]. cbn [is_least_ge] in *.
      destruct Hl as [_ [_ Hl]], Hll as [_ [Hll _]]. rewrite Hl in Hz by lia. discriminate.
    - assert (Hxj : x < j).
      { destruct (N.lt_ge_cases x j) as [|Hge]; [assumption|]. exfalso. apply Hne.
        cbn [is_least_ge] in *. destruct Hl as [L1 [L2 L3]], Hll as [M1 [M2 M3]].
        destruct (N.lt_total x y) as [H|[H|H]]; [|assumption|].
        - rewrite M3 in L1 by lia. discriminate.
        - rewrite L3 in M1 by lia. discriminate. }
      rewrite (deref_addr w s it _ Hc). cbn [to_addr bind].
      destruct (ss_next _ _ (top_spec w) s it x Hi Hc) as [it' [c' [H1 [H2 H3]]]].
      unfold ps_next. rewrite H1. cbn [bind].
      cbn [is_least_ge] in Hl. destruct Hl as [Hl1 [Hl2 Hl3]].
      destruct (card_remove _ (from (ss_mem (top_spec w) s) (x + 1)) _ x Hcard) as [Hn0 Hcard'].
      { unfold from. rewrite Hl1. replace (i <=? x) with true by lia. reflexivity. }
      { intros z. unfold from. destruct (N.eqb_spec z x) as [->|Hzx]; cbn [negb andb].
        - replace (x + 1 <=? x) with false by lia. reflexivity.
        - destruct (N.leb_spec (x + 1) z) as [Hz|Hz]; destruct (N.leb_spec i z) as [Hz'|Hz']; cbn [andb]; try lia; try reflexivity.
          symmetry. apply Hl3; lia. }
      destruct (IH it' last (x + 1) j c' (Some y) (n - 1) H2 H3 Hll Hcl ltac:(lia) Hcard' ltac:(lia)) as [l [Hw' Hin]].
      rewrite Hw'. cbn [bind]. eexists. split; [reflexivity|].
      intros a. cbn [In]. rewrite Hin. split.
      + intros [<-|[H4 H5]]; [|split; [exact H4|lia]]. rewrite <- Hm. split; [exact Hl1|lia].
      + intros [H4 H5]. destruct (Hun a H4) as [z [-> Hz]].
        destruct (N.lt_total z x) as [H6|[H6|H6]].
        * rewrite Hl3 in Hz by lia. discriminate.
        * left. congruence.
        * right. split; [exact H4|lia].
    - assert (Hxj : x < j).
      { cbn [is_least_ge] in *. destruct Hl as [L1 [L2 L3]].
        destruct (N.lt_ge_cases x j) as [|Hge]; [assumption|]. rewrite Hll in L1 by lia. discriminate. }
      rewrite (deref_addr w s it _ Hc). cbn [to_addr bind].
      destruct (ss_next _ _ (top_spec w) s it x Hi Hc) as [it' [c' [H1 [H2 H3]]]].
      unfold ps_next. rewrite H1. cbn [bind].
      cbn [is_least_ge] in Hl. destruct Hl as [Hl1 [Hl2 Hl3]].
      destruct (card_remove _ (from (ss_mem (top_spec w) s) (x + 1)) _ x Hcard) as [Hn0 Hcard'].
      { unfold from. rewrite Hl1. replace (i <=? x) with true by lia. reflexivity. }
      { intros z. unfold from. destruct (N.eqb_spec z x) as [->|Hzx]; cbn [negb andb].
        - replace (x + 1 <=? x) with false by lia. reflexivity.
        - destruct (N.leb_spec (x + 1) z) as [Hz|Hz]; destruct (N.leb_spec i z) as [Hz'|Hz']; cbn [andb]; try lia; try reflexivity.
          symmetry. apply Hl3; lia. }
      destruct (IH it' last (x + 1) j c' None (n - 1) H2 H3 Hll Hcl ltac:(lia) Hcard' ltac:(lia)) as [l [Hw' Hin]].
      rewrite Hw'. cbn [bind]. eexists. split; [reflexivity|].
      intros a. cbn [In]. rewrite Hin. split.
      + intros [<-|[H4 H5]]; [|split; [exact H4|lia]]. rewrite <- Hm. split; [exact Hl1|lia].
      + intros [H4 H5]. destruct (Hun a H4) as [z [-> Hz]].
        destruct (N.lt_total z x) as [H6|[H6|H6]].
        * rewrite Hl3 in Hz by lia. discriminate.
        * left. congruence.
        * right. split; [exact H4|lia].
    - cbn [is_least_ge] in Hl. destruct cl as [y|].
      + cbn [is_least_ge] in Hll. destruct Hll as [M1 [M2 M3]]. rewrite Hl in M1 by lia. discriminate.
      + exists []. split; [reflexivity|]. intros a. split; [intros []|]. intros [H1 H2].
        destruct (Hun a H1) as [z [-> Hz]]. rewrite Hl in Hz by lia. discriminate.
  Qed.

  Lemma range_ok s m a b : reps w s m -> addr a -> addr b -> a <= b ->
    exists first last l, ps_lower oob s a = Some first /\ ps_lower oob s b = Some last /\
      ps_range oob (S (N.to_nat (ps_size s))) s first last = Some l /\
      (forall x, In x l <-> m x = true /\ a <= x < b).
  Proof.
    intros Hr Ha Hb Hab. assert (Hr' := Hr). destruct Hr' as [Hi [Hm Hall]].
    destruct (addr_index a Ha) as [Hxa Ea], (addr_index b Hb) as [Hxb Eb].
    destruct (ss_lower _ _ (top_spec w) s _ Hi Hxa) as [first [c [F1 [F2 F3]]]].
    destruct (ss_lower _ _ (top_spec w) s _ Hi Hxb) as [last [cl [L1 [L2 L3]]]].
    assert (Hcard := size_card w s Hi). destruct Hcard as [l0 [C1 [C2 C3]]].
    destruct (range_go s m Hr (S (N.to_nat (ps_size s))) first last (N.shiftr a 3) (N.shiftr b 3) c cl
                (N.of_nat (length (filter (fun x => N.shiftr a 3 <=? x) l0))) F2 F3 L2 L3) as [l [W1 W2]].
    - lia.
    - exists (filter (fun x => N.shiftr a 3 <=? x) l0). split; [apply NoDup_filter; exact C1|]. split; [|reflexivity].
      intros x. rewrite filter_In, C2. unfold from. rewrite andb_true_iff. tauto.
    - assert (length (filter (fun x => (N.shiftr a 3 <=? x)%N) l0) <= length l0)%nat.
      { clear. induction l0 as [|x l0 IH]; cbn [filter length]; [lia|]. destruct (N.shiftr a 3 <=? x)%N; cbn [length]; lia. }
      lia.
    - exists first, last, l. split; [exact F1|]. split; [exact L1|]. split; [exact W1|].
      intros x. rewrite W2, <- Ea, <- Eb. reflexivity.
  Qed.

  Lemma R_elements s m : reps w s m ->
    exists l, ps_elements oob s = Some l /\ NoDup l /\ (forall a, In a l <-> m a = true) /\ N.of_nat (length l) = ps_size s.
  Proof.
    intros Hr. destruct (elements_ok w s m Hr) as [l [H1 [H2 [H3 H4]]]].
    exists l. split; [exact H1|]. split; [|split; assumption]. clear - H2.
    induction H2 as [|a l H IH Hf]; constructor; [|assumption].
    intros Hin. rewrite Forall_forall in Hf. apply Hf in Hin. lia.
  Qed.

  Lemma R_ext s m m' : reps w s m -> (forall a, m' a = m a) -> reps w s m'.
  Proof.
    intros [H1 [H2 H3]] E. split; [exact H1|]. split; intros; [rewrite E; apply H2|].
    apply H3. rewrite <- E. assumption.
  Qed.
End Abstract.

(** ** Specification of a well-formed heap *)

Definition inside (g : gc) (p x : N) : Prop :=
  let (base, size) := g_info g p in base <= x < base + size.


(** Reachability as the collector sees it: roots are the cells outside every
    allocated datum ([L]). *)
Inductive reach_over (g : gc) (L : N -> Prop) : N -> Prop :=
| reach_root x p : g_cell g x = Some (Some p) -> (forall q, L q -> ~ inside g q x) -> reach_over g L p
| reach_step q x p : reach_over g L q -> inside g q x -> g_cell g x = Some (Some p) -> reach_over g L p.

Section Heap.
  Variable w : N.
  Notation oob := (Some w).

  (** [md] is the set of allocated data. *)
  Record wf (g : gc) (md : aset) : Prop := {
    wf_objects : exists mo, reps w (g_objects g) mo /\
        forall x, mo x = true <-> exists p, g_cell g x = Some (Some p);
    wf_data : reps w (g_data g) md;
    wf_cell : forall x, g_cell g x <> None -> addr x;
    wf_ptr : forall x p, g_cell g x = Some (Some p) -> md p = true;
    wf_box : forall p, md p = true -> let (b, s) := g_info g p in
        b <= p < b + s /\ b mod 8 = 0 /\ s mod 8 = 0 /\ b + s < 2^47;
    wf_disjoint : forall p q x, md p = true -> md q = true -> inside g p x -> inside g q x -> p = q;
    wf_ext : forall x p, In (x, p) (g_ext g) ->
        md p = true /\ g_cell g x <> None /\ (forall q, md q = true -> ~ inside g q x);
    wf_ext_nodup : NoDup (map fst (g_ext g))
  }.

  Notation reach g md := (reach_over g (fun q => md q = true)).

  Lemma reach_md g md p : wf g md -> reach g md p -> md p = true.
  Proof. intros Hwf H. destruct H; eapply wf_ptr; eauto. Qed.

  (** ** is_root *)
  Lemma datum_contains_ok g md x p : wf g md -> md p = true -> addr x ->
    (datum_contains g x p = true <-> inside g p x).
  Proof.
    intros Hwf Hp [_ Hx]. assert (H := wf_box g md Hwf p Hp).
    unfold datum_contains, inside. destruct (g_info g p) as [b s].
    destruct H as [H1 [_ [_ H2]]]. rewrite N.ltb_lt.
    assert (H47 : 2^47 < 2^64) by reflexivity.
    destruct (N.le_gt_cases b x) as [Hle|Hgt].
    - replace (x + 2^64 - b) with ((x - b) + 1 * 2^64) by lia. rewrite N.mod_add by discriminate.
      rewrite N.mod_small by lia. lia.
    - rewrite N.mod_small by lia. lia.
  Qed.

  Lemma is_root_ok g md x : wf g md -> addr x ->
    exists b, is_root oob g x = Some b /\ (b = true <-> forall q, md q = true -> ~ inside g q x) /\
      (b = false -> exists q, md q = true /\ inside g q x).
  Proof.
    intros Hwf Hx. destruct (lower_ok w (g_data g) md x (wf_data g md Hwf) Hx) as [it [L1 [L2 [it' [L3 L4]]]]].
    unfold is_root. rewrite L1. cbn [bind].
    set (c1 := match ps_deref oob it with Some p => datum_contains g x p | None => false end).
    set (c2 := match ps_deref oob it' with Some p => datum_contains g x p | None => false end).
    assert (Hiff : (exists q, md q = true /\ inside g q x) <-> c1 = true \/ c2 = true).
    { split.
      - intros [q [Hq Hin]]. assert (Hbq := wf_box g md Hwf q Hq).
        destruct (N.le_gt_cases x q) as [Hle|Hgt].
        + left. unfold c1. destruct (ps_deref (Some w) it) as [p|] eqn:Ep; cbn [is_least_ge] in L2.
          * destruct L2 as [M1 [M2 M3]].
            assert (Hpq : p <= q) by (destruct (N.le_gt_cases p q) as [|H]; [assumption|]; rewrite M3 in Hq by lia; discriminate).
            assert (p = q).
            { apply (wf_disjoint g md Hwf p q p M1 Hq).
              - assert (Hbp := wf_box g md Hwf p M1). unfold inside. destruct (g_info g p). lia.
              - unfold inside in *. destruct (g_info g q). lia. }
            subst p. apply (datum_contains_ok g md); assumption.
          * rewrite L2 in Hq by exact Hle. discriminate.
        + right. unfold c2. destruct (ps_deref (Some w) it') as [p|] eqn:Ep; cbn [is_greatest_lt] in L4.
          * destruct L4 as [M1 [M2 M3]].
            assert (Hpq : q <= p) by (destruct (N.le_gt_cases q p) as [|H]; [assumption|]; rewrite M3 in Hq by lia; discriminate).
            assert (p = q).
            { apply (wf_disjoint g md Hwf p q p M1 Hq).
              - assert (Hbp := wf_box g md Hwf p M1). unfold inside. destruct (g_info g p). lia.
              - unfold inside in *. destruct (g_info g q). lia. }
            subst p. apply (datum_contains_ok g md); assumption.
          * rewrite L4 in Hq by exact Hgt. discriminate.
      - unfold c1, c2. intros [H|H].
        + destruct (ps_deref (Some w) it) as [p|]; [|discriminate]. destruct L2 as [M1 _].
          exists p. split; [exact M1|]. apply (datum_contains_ok g md x p Hwf M1 Hx). exact H.
        + destruct (ps_deref (Some w) it') as [p|]; [|discriminate]. destruct L4 as [M1 _].
          exists p. split; [exact M1|]. apply (datum_contains_ok g md x p Hwf M1 Hx). exact H. }
    destruct c1 eqn:E1.
    - exists false. split; [reflexivity|]. split; [|intros _; apply Hiff; left; reflexivity].
      split; [discriminate|]. intros H. exfalso.
      destruct Hiff as [_ Hiff]. destruct Hiff as [q [Hq Hin]]; [left; reflexivity|]. exact (H q Hq Hin).
    - rewrite L3. cbn [bind]. fold c2. exists (negb c2). split; [reflexivity|].
      split; [|destruct c2; [intros _; apply Hiff; right; reflexivity|discriminate]].
      destruct c2; cbn [negb]; split; try discriminate; try reflexivity.
      + intros H. exfalso. destruct Hiff as [_ Hiff]. destruct Hiff as [q [Hq Hin]]; [right; reflexivity|]. exact (H q Hq Hin).
      + intros _ q Hq Hin. destruct Hiff as [Hiff _]. destruct Hiff as [H|H]; [exists q; auto|discriminate|discriminate].
  Qed.

  Lemma find_roots_ok g md xs : wf g md -> (forall x, In x xs -> addr x) ->
    exists rs, find_roots oob g xs = Some rs /\
      (forall x, In x rs <-> In x xs /\ forall q, md q = true -> ~ inside g q x).
  Proof.
    intros Hwf. induction xs as [|x xs IH]; intros Hxs; cbn [find_roots].
    - exists []. split; [reflexivity|]. intros x. cbn. tauto.
    - destruct (is_root_ok g md x Hwf) as [b [Hb [Hb' _]]]; [apply Hxs; left; reflexivity|].
      destruct IH as [rs [Hrs Hin]]; [intros y Hy; apply Hxs; right; exact Hy|].
      rewrite Hb. cbn [bind]. rewrite Hrs. cbn [bind]. eexists. split; [reflexivity|].
      intros y. destruct b; cbn [In]; rewrite Hin.
      + split.
        * intros [<-|[H1 H2]]; [|tauto]. split; [auto|]. apply Hb'. reflexivity.
        * intros [[<-|H1] H2]; auto.
      + split; [tauto|]. intros [[<-|H1] H2]; [|tauto]. apply Hb' in H2. discriminate.
  Qed.

  (** ** Marking *)
  Record minv (g : gc) (md : aset) (m : marking) (mn mr : aset) : Prop := {
    mi_new : reps w (mk_new m) mn;
    mi_data : reps w (mk_data m) mr;
    mi_split : forall p, md p = mn p || mr p;
    mi_disj : forall p, mn p = true -> mr p = false;
    mi_reach : forall p, mn p = true -> reach g md p;
    mi_stack : forall p, In p (mk_stack m) -> mn p = true;
    mi_closed : forall p, mn p = true -> ~ In p (mk_stack m) ->
        forall x q, inside g p x -> g_cell g x = Some (Some q) -> mn q = true
  }.

  (** the same, while the children of [p0] (already popped) are being marked *)
  Definition closed_but (g : gc) (m : marking) (mn : aset) (p0 : option N) : Prop :=
    forall p, mn p = true -> ~ In p (mk_stack m) -> Some p <> p0 ->
      forall x q, inside g p x -> g_cell g x = Some (Some q) -> mn q = true.

  Record minv' (g : gc) (md : aset) (m : marking) (mn mr : aset) (p0 : option N) : Prop := {
    mi'_new : reps w (mk_new m) mn;
    mi'_data : reps w (mk_data m) mr;
    mi'_split : forall p, md p = mn p || mr p;
    mi'_disj : forall p, mn p = true -> mr p = false;
    mi'_reach : forall p, mn p = true -> reach g md p;
    mi'_stack : forall p, In p (mk_stack m) -> mn p = true;
    mi'_closed : closed_but g m mn p0
  }.

  Definition weight (m : marking) : N := ps_size (mk_data m) + N.of_nat (length (mk_stack m)).

  Lemma mark_ok g md m mn mr p0 x p : wf g md -> minv' g md m mn mr p0 ->
    g_cell g x = Some (Some p) -> reach g md p ->
    exists m' mn' mr', mark oob g m x = Some m' /\ minv' g md m' mn' mr' p0 /\
      mn' p = true /\ (forall q, mn q = true -> mn' q = true) /\ weight m' = weight m.
  Proof.
    intros Hwf Hm Hc Hre. assert (Hmd := reach_md g md p Hwf Hre).
    assert (Hap := R_addr w _ _ p (wf_data g md Hwf) Hmd).
    unfold mark. rewrite Hc. rewrite (R_contains w _ mn p (mi'_new _ _ _ _ _ _ Hm) Hap). cbn [bind].
    destruct (mn p) eqn:Emn.
    - exists m, mn, mr. split; [reflexivity|]. split; [exact Hm|]. auto.
    - assert (Emr : mr p = true).
      { assert (H := mi'_split _ _ _ _ _ _ Hm p). rewrite Emn, Hmd in H. symmetry. exact H. }
      destruct (R_insert w _ mn p (mi'_new _ _ _ _ _ _ Hm) Hap Emn) as [new [N1 N2]]. rewrite N1. cbn [bind].
      rewrite (R_contains w _ mr p (mi'_data _ _ _ _ _ _ Hm) Hap). cbn [bind]. rewrite Emr.
      destruct (R_erase w _ mr p (mi'_data _ _ _ _ _ _ Hm) Emr) as [dat [D1 D2]]. rewrite D1. cbn [bind].
      eexists _, _, _. split; [reflexivity|]. split; [|split; [|split]].
      + constructor; cbn [mk_new mk_data mk_stack].
        * exact N2.
        * exact D2.
        * intros q. cbn [after]. rewrite (mi'_split _ _ _ _ _ _ Hm q). destruct (N.eqb_spec q p) as [->|]; cbn.
          -- rewrite Emn, Emr. reflexivity.
          -- reflexivity.
        * intros q. cbn [after]. destruct (N.eqb_spec q p) as [->|]; cbn; [reflexivity|]. apply (mi'_disj _ _ _ _ _ _ Hm).
        * intros q. cbn [after]. destruct (N.eqb_spec q p) as [->|]; cbn; [auto|]. apply (mi'_reach _ _ _ _ _ _ Hm).
        * intros q. cbn [after In]. intros [->|H]; [rewrite N.eqb_refl; reflexivity|].
          rewrite (mi'_stack _ _ _ _ _ _ Hm q H). apply orb_true_r.
        * intros q Hq Hnin Hne y z Hy Hz. cbn [after mk_stack In] in *.
          destruct (N.eq_dec q p) as [E|Hqp]; [exfalso; apply Hnin; left; symmetry; exact E|].
          rewrite (proj2 (N.eqb_neq q p) Hqp) in Hq. cbn [orb] in Hq.
          assert (Hnin' : ~ In q (mk_stack m)) by (intros H; apply Hnin; right; exact H).
          rewrite (mi'_closed _ _ _ _ _ _ Hm q Hq Hnin' Hne y z Hy Hz). apply orb_true_r.
      + cbn [after]. rewrite N.eqb_refl. reflexivity.
      + intros q Hq. cbn [after]. rewrite Hq. apply orb_true_r.
      + unfold weight. cbn [mk_data mk_stack length].
        assert (C1 := R_size w _ _ (mi'_data _ _ _ _ _ _ Hm)). assert (C2 := R_size w _ _ D2).
        destruct (card_remove _ (after mr (Erase p)) _ p C1 Emr) as [Hn0 C3]; [reflexivity|].
        assert (E := card_unique _ _ _ C2 C3). lia.
  Qed.

  Lemma mark_all_ok g md p0 : wf g md -> forall xs m mn mr, minv' g md m mn mr p0 ->
    (forall x, In x xs -> exists p, g_cell g x = Some (Some p) /\ reach g md p) ->
    exists m' mn' mr', mark_all oob g m xs = Some m' /\ minv' g md m' mn' mr' p0 /\
      (forall x p, In x xs -> g_cell g x = Some (Some p) -> mn' p = true) /\
      (forall q, mn q = true -> mn' q = true) /\ weight m' = weight m.
  Proof.
    intros Hwf. induction xs as [|x xs IH]; intros m mn mr Hm Hxs; cbn [mark_all].
    - exists m, mn, mr. split; [reflexivity|]. split; [exact Hm|]. split; [intros ? ? []|]. split; auto.
    - destruct (Hxs x) as [p [Hc Hre]]; [left; reflexivity|].
      destruct (mark_ok g md m mn mr p0 x p Hwf Hm Hc Hre) as [m1 [mn1 [mr1 [M1 [M2 [M3 [M4 M5]]]]]]].
      rewrite M1. cbn [bind].
      destruct (IH m1 mn1 mr1 M2) as [m2 [mn2 [mr2 [P1 [P2 [P3 [P4 P5]]]]]]]; [intros y Hy; apply Hxs; right; exact Hy|].
      exists m2, mn2, mr2. split; [exact P1|]. split; [exact P2|]. split; [|split; [auto|congruence]].
      intros y q [<-|Hy] Hq; [|eapply P3; eauto]. rewrite Hc in Hq. injection Hq as <-. auto.
  Qed.

  Lemma mark_loop_ok g md : wf g md -> forall fuel m mn mr,
    minv g md m mn mr -> weight m < N.of_nat fuel ->
    exists m' mn' mr', mark_loop oob fuel g m = Some m' /\ minv g md m' mn' mr' /\ mk_stack m' = [] /\
      (forall q, mn q = true -> mn' q = true) /\ weight m' <= weight m.
  Proof.
    intros Hwf. induction fuel as [|fuel IH]; intros m mn mr Hm Hf; [lia|].
    cbn [mark_loop]. destruct (mk_stack m) as [|p stack] eqn:Es.
    - exists m, mn, mr. split; [reflexivity|]. split; [exact Hm|]. split; [exact Es|]. split; [auto|lia].
    - assert (Hpn : mn p = true) by (apply (mi_stack _ _ _ _ _ Hm); rewrite Es; left; reflexivity).
      assert (Hpr := mi_reach _ _ _ _ _ Hm p Hpn). assert (Hpm := reach_md g md p Hwf Hpr).
      assert (Hbox := wf_box g md Hwf p Hpm).
      assert (Hins : forall x, inside g p x <-> let (b, s) := g_info g p in b <= x < b + s) by (intros; reflexivity).
      destruct (g_info g p) as [base size] eqn:Ei. destruct Hbox as [B1 [B2 [B3 B4]]].
      destruct (wf_objects g md Hwf) as [mo [Ho Hmo]].
      assert (Ab : addr base) by (split; [exact B2|lia]).
      assert (Ae : addr (base + size)).
      { split; [|lia]. rewrite N.add_mod by lia. rewrite B2, B3. reflexivity. }
      destruct (range_ok w (g_objects g) mo base (base + size) Ho Ab Ae ltac:(lia)) as [first [last [xs [F1 [F2 [F3 F4]]]]]].
      rewrite F1. cbn [bind]. rewrite F2. cbn [bind]. rewrite F3. cbn [bind].
      set (m0 := {| mk_new := mk_new m; mk_data := mk_data m; mk_stack := stack; mk_size := mk_size m + size |}).
      assert (Hm0 : minv' g md m0 mn mr (Some p)).
      { constructor; cbn [m0 mk_new mk_data mk_stack]; try apply Hm.
        - intros q Hq. apply (mi_stack _ _ _ _ _ Hm). rewrite Es. right. exact Hq.
        - intros q Hq Hnin Hne. apply (mi_closed _ _ _ _ _ Hm q Hq). rewrite Es. cbn [In m0 mk_stack] in *.
          intros [->|H]; [congruence|contradiction]. }
      destruct (mark_all_ok g md (Some p) Hwf xs m0 mn mr Hm0) as [m1 [mn1 [mr1 [P1 [P2 [P3 [P4 P5]]]]]]].
      { intros x Hx. apply F4 in Hx as [Hx1 Hx2]. apply Hmo in Hx1 as [q Hq]. exists q. split; [exact Hq|].
        eapply reach_step; [exact Hpr| |exact Hq]. apply Hins. exact Hx2. }
      rewrite P1. cbn [bind].
      assert (Hm1 : minv g md m1 mn1 mr1).
      { constructor; try apply P2. intros q Hq Hnin x z Hx Hz.
        destruct (N.eq_dec q p) as [->|Hne].
        - eapply P3; [|exact Hz]. apply F4. split; [apply Hmo; exists z; exact Hz|]. apply Hins. exact Hx.
        - eapply (mi'_closed _ _ _ _ _ _ P2 q Hq Hnin); [congruence|exact Hx|exact Hz]. }
      assert (Hw1 : weight m1 + 1 = weight m).
      { rewrite P5. unfold weight, m0. cbn [mk_data mk_stack]. rewrite Es. cbn [length]. lia. }
      destruct (IH m1 mn1 mr1 Hm1 ltac:(lia)) as [m2 [mn2 [mr2 [Q1 [Q2 [Q3 [Q4 Q5]]]]]]].
      exists m2, mn2, mr2. split; [exact Q1|]. split; [exact Q2|]. split; [exact Q3|]. split; [auto|lia].
  Qed.

  Lemma mark_roots_ok g md : wf g md -> forall rs m mn mr,
    (forall x, In x rs -> exists p, g_cell g x = Some (Some p) /\ forall q, md q = true -> ~ inside g q x) ->
    minv g md m mn mr -> mk_stack m = [] -> weight m <= ps_size (g_data g) ->
    exists m' mn' mr', mark_roots oob g m rs = Some m' /\ minv g md m' mn' mr' /\ mk_stack m' = [] /\
      (forall x p, In x rs -> g_cell g x = Some (Some p) -> mn' p = true) /\
      (forall q, mn q = true -> mn' q = true).
  Proof.
    intros Hwf. induction rs as [|r rs IH]; intros m mn mr Hrs Hm Hst Hwt; cbn [mark_roots].
    - exists m, mn, mr. split; [reflexivity|]. split; [exact Hm|]. split; [exact Hst|]. split; [intros ? ? []|auto].
    - destruct (Hrs r) as [p [Hc Hroot]]; [left; reflexivity|].
      assert (Hre : reach g md p) by (eapply reach_root; eauto).
      assert (Hm' : minv' g md m mn mr None).
      { constructor; try apply Hm. intros q Hq Hnin _. apply (mi_closed _ _ _ _ _ Hm q Hq Hnin). }
      destruct (mark_ok g md m mn mr None r p Hwf Hm' Hc Hre) as [m1 [mn1 [mr1 [M1 [M2 [M3 [M4 M5]]]]]]].
      rewrite M1. cbn [bind].
      assert (Hm1 : minv g md m1 mn1 mr1).
      { constructor; try apply M2. intros q Hq Hnin. apply (mi'_closed _ _ _ _ _ _ M2 q Hq Hnin). discriminate. }
      destruct (mark_loop_ok g md Hwf (S (N.to_nat (ps_size (g_data g)))) m1 mn1 mr1 Hm1 ltac:(lia))
        as [m2 [mn2 [mr2 [Q1 [Q2 [Q3 [Q4 Q5]]]]]]].
      rewrite Q1. cbn [bind].
      destruct (IH m2 mn2 mr2) as [m3 [mn3 [mr3 [T1 [T2 [T3 [T4 T5]]]]]]]; try assumption; try lia.
      { intros x Hx. apply Hrs. right. exact Hx. }
      exists m3, mn3, mr3. split; [exact T1|]. split; [exact T2|]. split; [exact T3|]. split; [|auto].
      intros x q [<-|Hx] Hq; [|eapply T4; eauto]. rewrite Hc in Hq. injection Hq as <-. auto.
  Qed.

  Lemma root_or_inside g md x : wf g md -> addr x ->
    (forall q, md q = true -> ~ inside g q x) \/ (exists q, md q = true /\ inside g q x).
  Proof.
    intros Hwf Hx. destruct (is_root_ok g md x Hwf Hx) as [b [_ [H1 H2]]].
    destruct b; [left; apply H1; reflexivity|right; apply H2; reflexivity].
  Qed.

  (** ** Cells and their registry *)
  Definition reg (g : gc) : Prop :=
    (exists mo, reps w (g_objects g) mo /\ forall x, mo x = true <-> exists p, g_cell g x = Some (Some p)) /\
    (forall x, g_cell g x <> None -> addr x).

  (** [g'] is [g] with cell [x] changed to [c] and the registry adjusted *)
  Definition cell_set (g g' : gc) (x : N) (c : option (option N)) : Prop :=
    reg g' /\ (forall y, g_cell g' y = if y =? x then c else g_cell g y) /\
    g_data g' = g_data g /\ g_info g' = g_info g /\ g_ext g' = g_ext g /\
    g_size g' = g_size g /\ g_capacity g' = g_capacity g.

  Definition is_ptr (c : option (option N)) : bool := match c with Some (Some _) => true | _ => false end.

  Lemma is_ptr_iff c : is_ptr c = true <-> exists p, c = Some (Some p).
  Proof.
    destruct c as [[p|]|]; cbn; split; try discriminate; try reflexivity.
    - intros _. exists p. reflexivity.
    - intros [p H]. discriminate.
    - intros [p H]. discriminate.
  Qed.

  Lemma set_same g x c : reg g -> addr x -> is_ptr (g_cell g x) = is_ptr c -> cell_set g (with_cell g x c) x c.
  Proof.
    intros [[mo [Ho Hmo]] Ha] Hx Hp. split; [|repeat split; reflexivity]. split.
    - exists mo. split; [exact Ho|]. intros y. cbn [with_cell g_cell]. unfold upd.
      destruct (N.eqb_spec y x) as [->|]; [|apply Hmo].
      rewrite <- is_ptr_iff, <- Hp, is_ptr_iff. apply Hmo.
    - intros y. cbn [with_cell g_cell]. unfold upd. destruct (N.eqb_spec y x) as [->|]; [auto|apply Ha].
  Qed.

  Lemma set_insert g x c : reg g -> addr x -> is_ptr (g_cell g x) = false -> is_ptr c = true ->
    exists g', obj_insert oob (with_cell g x c) x = Some g' /\ cell_set g g' x c.
  Proof.
    intros [[mo [Ho Hmo]] Ha] Hx Hp Hc. unfold obj_insert. cbn [with_cell g_objects].
    rewrite (R_contains w _ mo x Ho Hx). cbn [bind].
    assert (Hmx : mo x = false).
    { destruct (mo x) eqn:E; [|reflexivity]. apply Hmo in E. apply is_ptr_iff in E. congruence. }
    rewrite Hmx. destruct (R_insert w _ mo x Ho Hx Hmx) as [o [O1 O2]]. rewrite O1. cbn [bind].
    eexists. split; [reflexivity|]. split; [|repeat split; reflexivity]. split.
    - exists (after mo (Insert x)). split; [exact O2|]. intros y. cbn [with_objects with_cell g_cell after]. unfold upd.
      destruct (N.eqb_spec y x) as [->|]; cbn [orb]; [|apply Hmo].
      split; [intros _; apply is_ptr_iff; exact Hc|reflexivity].
    - intros y. cbn [with_objects with_cell g_cell]. unfold upd. destruct (N.eqb_spec y x) as [->|]; [auto|apply Ha].
  Qed.

  Lemma set_erase g x c : reg g -> addr x -> is_ptr (g_cell g x) = true -> is_ptr c = false ->
    exists g', obj_erase oob (with_cell g x c) x = Some g' /\ cell_set g g' x c.
  Proof.
    intros [[mo [Ho Hmo]] Ha] Hx Hp Hc. unfold obj_erase. cbn [with_cell g_objects].
    rewrite (R_contains w _ mo x Ho Hx). cbn [bind].
    assert (Hmx : mo x = true) by (apply Hmo, is_ptr_iff; exact Hp).
    rewrite Hmx. destruct (R_erase w _ mo x Ho Hmx) as [o [O1 O2]]. rewrite O1. cbn [bind].
    eexists. split; [reflexivity|]. split; [|repeat split; reflexivity]. split.
    - exists (after mo (Erase x)). split; [exact O2|]. intros y. cbn [with_objects with_cell g_cell after]. unfold upd.
      destruct (N.eqb_spec y x) as [->|]; cbn [negb andb]; [|apply Hmo].
      split; [discriminate|]. intros H. apply is_ptr_iff in H. congruence.
    - intros y. cbn [with_objects with_cell g_cell]. unfold upd. destruct (N.eqb_spec y x) as [->|]; [auto|apply Ha].
  Qed.

  Lemma reg_addr g x c : reg g -> g_cell g x = Some c -> addr x.
  Proof. intros [_ H] E. apply H. congruence. Qed.

  Lemma ctor_immediate_ok g x : reg g -> addr x -> g_cell g x = None ->
    exists g', ctor_immediate g x = Some g' /\ cell_set g g' x (Some None).
  Proof. intros Hr Hx Hc. eexists. split; [reflexivity|]. apply set_same; try assumption. rewrite Hc. reflexivity. Qed.

  Lemma ctor_pair_ok g x p : reg g -> addr x -> g_cell g x = None ->
    exists g', ctor_pair oob g x p = Some g' /\ cell_set g g' x (Some (Some p)).
  Proof. intros Hr Hx Hc. apply set_insert; try assumption; [rewrite Hc|]; reflexivity. Qed.

  Lemma truthy_with g x c : truthy (with_cell g x (Some c)) x = Some (is_ptr (Some c)).
  Proof. unfold truthy. cbn [with_cell g_cell]. unfold upd. rewrite N.eqb_refl. destruct c; reflexivity. Qed.

  Lemma truthy_cell g x c : g_cell g x = Some c -> truthy g x = Some (is_ptr (g_cell g x)).
  Proof. intros E. unfold truthy. rewrite E. destruct c; reflexivity. Qed.

  Lemma ctor_copy_ok g x y c : reg g -> addr x -> g_cell g x = None -> g_cell g y = Some c ->
    exists g', ctor_copy oob g x y = Some g' /\ cell_set g g' x (Some c).
  Proof.
    intros Hr Hx Hc Hy. unfold ctor_copy. rewrite Hy. cbn [bind]. rewrite truthy_with. cbn [bind].
    destruct (is_ptr (Some c)) eqn:E.
    - apply set_insert; try assumption. rewrite Hc. reflexivity.
    - eexists. split; [reflexivity|]. apply set_same; try assumption. rewrite Hc, E. reflexivity.
  Qed.

  Lemma with_cell_objects g o x c : with_cell (with_objects g o) x c = with_objects (with_cell g x c) o.
  Proof. reflexivity. Qed.

  Lemma dtor_ok g x c : reg g -> g_cell g x = Some c ->
    exists g', dtor oob g x = Some g' /\ cell_set g g' x None.
  Proof.
    intros Hr Hc. assert (Hx := reg_addr g x c Hr Hc).
    unfold dtor. rewrite (truthy_cell g x c Hc). cbn [bind].
    destruct (is_ptr (g_cell g x)) eqn:E.
    - destruct (set_erase g x None Hr Hx E eq_refl) as [g' [H1 H2]].
      unfold obj_erase in *. cbn [with_cell g_objects] in H1.
      destruct (ps_contains oob (g_objects g) x) as [b|]; [|discriminate]. cbn [bind] in *.
      destruct b; [|discriminate]. destruct (ps_erase oob (g_objects g) x) as [o|]; [|discriminate].
      cbn [bind] in *. rewrite with_cell_objects. exists g'. auto.
    - eexists. split; [reflexivity|]. apply set_same; try assumption.
  Qed.

  Definition claim_ok (k : cond) (b : bool) : Prop :=
    match k with Identity => True | Truthy => b = true | Falsy => b = false end.

  Lemma test_ok k g x c : g_cell g x = Some c -> claim_ok k (is_ptr (g_cell g x)) ->
    test k g x = Some (is_ptr (g_cell g x)).
  Proof.
    intros Hc Hk. unfold test. rewrite (truthy_cell g x c Hc). cbn [bind].
    destruct k; cbn in Hk; [reflexivity| |]; rewrite Hk; reflexivity.
  Qed.

  Lemma reset_copy_ok pre post g x y a c : reg g -> g_cell g x = Some a -> g_cell g y = Some c ->
    claim_ok pre (is_ptr (Some a)) -> claim_ok post (is_ptr (Some c)) ->
    exists g', reset_copy oob pre post g x y = Some g' /\ cell_set g g' x (Some c).
  Proof.
    intros Hr Hx Hy Hpre Hpost. assert (Hax := reg_addr g x a Hr Hx).
    unfold reset_copy. rewrite (test_ok pre g x a Hx) by (rewrite Hx; exact Hpre). cbn [bind].
    rewrite Hy. cbn [bind]. cbv zeta.
    assert (Hxx : g_cell (with_cell g x (Some c)) x = Some c).
    { cbn [with_cell g_cell]. unfold upd. rewrite N.eqb_refl. reflexivity. }
    rewrite (test_ok post (with_cell g x (Some c)) x c Hxx) by (rewrite Hxx; exact Hpost). cbn [bind].
    rewrite Hxx.
    destruct (is_ptr (g_cell g x)) eqn:E1, (is_ptr (Some c)) eqn:E2.
    - eexists. split; [reflexivity|]. apply set_same; congruence.
    - apply set_erase; assumption.
    - apply set_insert; assumption.
    - eexists. split; [reflexivity|]. apply set_same; congruence.
  Qed.

  Lemma reset_null_ok pre g x a : reg g -> g_cell g x = Some a -> claim_ok pre (is_ptr (Some a)) ->
    exists g', reset_null oob pre g x = Some g' /\ cell_set g g' x (Some None).
  Proof.
    intros Hr Hx Hpre. assert (Hax := reg_addr g x a Hr Hx).
    unfold reset_null. rewrite (test_ok pre g x a Hx) by (rewrite Hx; exact Hpre). cbn [bind]. cbv zeta.
    destruct (is_ptr (g_cell g x)) eqn:E.
    - apply set_erase; try assumption. reflexivity.
    - eexists. split; [reflexivity|]. apply set_same; try assumption.
  Qed.

  (** ** Sweeping *)
  Definition same_but_cells (g g' : gc) : Prop :=
    g_data g' = g_data g /\ g_info g' = g_info g /\ g_size g' = g_size g /\ g_capacity g' = g_capacity g.

  Lemma destroy_all_ok xs : forall g, reg g -> exists g', destroy_all oob g xs = Some g' /\ reg g' /\
    same_but_cells g g' /\ g_ext g' = g_ext g /\
    (forall y, In y xs -> g_cell g' y = None) /\ (forall y, ~ In y xs -> g_cell g' y = g_cell g y).
  Proof.
    induction xs as [|x xs IH]; intros g Hr; cbn [destroy_all].
    - exists g. split; [reflexivity|]. split; [exact Hr|]. split; [repeat split|]. split; [reflexivity|]. split; [intros y []|auto].
    - destruct (g_cell g x) as [c|] eqn:E.
      + destruct (dtor_ok g x c Hr E) as [g1 [D1 [D2 [D3 [D4 [D5 [D6 [D7 D8]]]]]]]]. rewrite D1. cbn [bind].
        destruct (IH g1 D2) as [g2 [S1 [S2 [[S3 [S4 [S5 S6]]] [S7 [S8 S9]]]]]].
        exists g2. split; [exact S1|]. split; [exact S2|]. split; [repeat split; congruence|].
        split; [congruence|]. split.
        * intros y [<-|Hy]; [|apply S8; exact Hy].
          destruct (in_dec N.eq_dec x xs) as [Hin|Hnin]; [apply S8; exact Hin|].
          rewrite S9, D3, N.eqb_refl by exact Hnin. reflexivity.
        * intros y Hy. cbn [In] in Hy. rewrite S9, D3 by tauto.
          destruct (N.eqb_spec y x); [exfalso; apply Hy; left; congruence|reflexivity].
      + destruct (IH g Hr) as [g2 [S1 [S2 [S3 [S7 [S8 S9]]]]]].
        exists g2. split; [exact S1|]. split; [exact S2|]. split; [exact S3|]. split; [exact S7|]. split.
        * intros y [<-|Hy]; [|apply S8; exact Hy].
          destruct (in_dec N.eq_dec x xs) as [Hin|Hnin]; [apply S8; exact Hin|].
          rewrite S9 by exact Hnin. exact E.
        * intros y Hy. apply S9. cbn [In] in Hy. tauto.
  Qed.

  Definition frees (g : gc) (p y : N) : Prop := In y (inner_slots g p) \/ In (y, p) (g_ext g).

  Lemma outer_cells_in g p y : In y (outer_cells g p) <-> In (y, p) (g_ext g).
  Proof.
    unfold outer_cells. rewrite in_map_iff. split.
    - intros [[a b] [<- H]]. apply filter_In in H as [H1 H2]. cbn in *. apply N.eqb_eq in H2. subst b. exact H1.
    - intros H. exists (y, p). split; [reflexivity|]. apply filter_In. split; [exact H|]. cbn. apply N.eqb_refl.
  Qed.

  Lemma delete_ok g p : reg g -> exists g', delete oob g p = Some g' /\ reg g' /\ same_but_cells g g' /\
    g_ext g' = filter (fun e => negb (snd e =? p)) (g_ext g) /\
    (forall y, frees g p y -> g_cell g' y = None) /\ (forall y, ~ frees g p y -> g_cell g' y = g_cell g y).
  Proof.
    intros Hr. unfold delete.
    destruct (destroy_all_ok (inner_slots g p ++ outer_cells g p) g Hr) as [g1 [S1 [S2 [[S3 [S4 [S5 S6]]] [S7 [S8 S9]]]]]].
    rewrite S1. cbn [bind]. eexists. split; [reflexivity|]. split; [exact S2|].
    split; [repeat split; assumption|]. cbn [g_ext g_cell]. split; [rewrite S7; reflexivity|]. unfold frees. split.
    - intros y Hy. apply S8. rewrite in_app_iff, outer_cells_in. exact Hy.
    - intros y Hy. apply S9. rewrite in_app_iff, outer_cells_in. exact Hy.
  Qed.

  Definition in_list (ps : list N) (p : N) : bool := existsb (N.eqb p) ps.
  Lemma in_list_ok ps p : in_list ps p = true <-> In p ps.
  Proof.
    unfold in_list. rewrite existsb_exists. split.
    - intros [x [H1 H2]]. apply N.eqb_eq in H2 as ->. exact H1.
    - intros H. exists p. split; [exact H|apply N.eqb_refl].
  Qed.

  Lemma delete_all_ok ps : forall g, reg g -> exists g', delete_all oob g ps = Some g' /\ reg g' /\ same_but_cells g g' /\
    g_ext g' = filter (fun e => negb (in_list ps (snd e))) (g_ext g) /\
    (forall p y, In p ps -> frees g p y -> g_cell g' y = None) /\
    (forall y, (forall p, In p ps -> ~ frees g p y) -> g_cell g' y = g_cell g y) /\
    (forall y, g_cell g' y = None \/ g_cell g' y = g_cell g y).
  Proof.
    induction ps as [|p ps IH]; intros g Hr; cbn [delete_all].
    - exists g. split; [reflexivity|]. split; [exact Hr|]. split; [repeat split|]. split.
      { clear. induction (g_ext g) as [|e l IHl]; cbn; [reflexivity|]. f_equal. exact IHl. }
      split; [intros p y []|]. split; auto.
    - destruct (delete_ok g p Hr) as [g1 [D1 [D2 [D3 [D4 [D5 D6]]]]]]. rewrite D1. cbn [bind].
      destruct (IH g1 D2) as [g2 [S1 [S2 [S3 [S4 [S5 [S6 S7]]]]]]].
      destruct D3 as [D3a [D3b [D3c D3d]]], S3 as [S3a [S3b [S3c S3d]]].
      assert (Hdec : forall y, frees g p y \/ ~ frees g p y).
      { intros y. unfold frees. destruct (in_dec N.eq_dec y (inner_slots g p)) as [H|H]; [left; left; exact H|].
        destruct (in_dec N.eq_dec y (outer_cells g p)) as [H'|H']; rewrite outer_cells_in in H'; tauto. }
      assert (Hfr : forall q y, frees g1 q y -> frees g q y).
      { intros q y. unfold frees, inner_slots. rewrite D3b, D4. intros [H|H]; [left; exact H|].
        right. apply filter_In in H. apply H. }
      assert (Hfr' : forall q y, q <> p -> frees g q y -> frees g1 q y).
      { intros q y Hqp. unfold frees, inner_slots. rewrite D3b, D4. intros [H|H]; [left; exact H|].
        right. apply filter_In. split; [exact H|]. cbn [snd]. apply negb_true_iff, N.eqb_neq. exact Hqp. }
      exists g2. split; [exact S1|]. split; [exact S2|]. split; [repeat split; congruence|]. split; [|split; [|split]].
      + rewrite S4, D4. clear. induction (g_ext g) as [|e l IHl]; cbn [filter]; [reflexivity|].
        unfold in_list in *. cbn [existsb]. destruct (snd e =? p); cbn [negb orb filter]; rewrite IHl; reflexivity.
      + assert (Hn : forall y, g_cell g1 y = None -> g_cell g2 y = None).
        { intros y Hy. destruct (S7 y) as [H|H]; [exact H|congruence]. }
        intros q y [<-|Hq] Hf; [apply Hn, D5; exact Hf|].
        destruct (N.eq_dec q p) as [->|Hqp]; [apply Hn, D5; exact Hf|].
        apply (S5 q y Hq). apply Hfr'; assumption.
      + intros y Hy. rewrite S6.
        * apply D6. apply Hy. left. reflexivity.
        * intros q Hq Hf. apply (Hy q); [right; exact Hq|]. apply Hfr. exact Hf.
      + intros y. destruct (S7 y) as [H|H]; [left; exact H|].
        destruct (Hdec y) as [Hf|Hf]; [left; rewrite H; apply D5; exact Hf|right; rewrite H; apply D6; exact Hf].
  Qed.

  Lemma inner_slots_in g md p x : wf g md -> md p = true -> x mod 8 = 0 -> (In x (inner_slots g p) <-> inside g p x).
  Proof.
    intros Hwf Hp Hx. assert (H := wf_box g md Hwf p Hp). unfold inner_slots, inside.
    destruct (g_info g p) as [b s]. destruct H as [_ [H2 [H3 _]]].
    assert (Hs := N.div_mod s 8 ltac:(lia)). assert (Hb := N.div_mod b 8 ltac:(lia)). assert (Hxd := N.div_mod x 8 ltac:(lia)).
    rewrite in_map_iff. split.
    - intros [i [<- Hi]]. apply in_seq in Hi. lia.
    - intros Hin. exists (N.to_nat (x / 8 - b / 8)). split; [lia|]. apply in_seq. lia.
  Qed.

  Lemma inner_slots_inside g md p x : wf g md -> md p = true -> In x (inner_slots g p) -> inside g p x.
  Proof.
    intros Hwf Hp Hin. assert (H := wf_box g md Hwf p Hp). unfold inner_slots, inside in *.
    destruct (g_info g p) as [b s]. destruct H as [_ [H2 [H3 _]]].
    assert (Hs := N.div_mod s 8 ltac:(lia)). apply in_map_iff in Hin as [i [<- Hi]]. apply in_seq in Hi. lia.
  Qed.

  Definition owned (g : gc) (p x : N) : Prop := inside g p x \/ In (x, p) (g_ext g).

  Lemma wf_reg g md : wf g md -> reg g.
  Proof. intros H. split; [apply (wf_objects g md H)|apply (wf_cell g md H)]. Qed.

  Lemma collect_ok g md : wf g md ->
    exists g' md', collect oob g = Some g' /\ wf g' md' /\
      (forall p, md' p = true <-> reach g md p) /\
      g_info g' = g_info g /\
      (forall x, (forall p, md p = true -> owned g p x -> md' p = true) -> g_cell g' x = g_cell g x) /\
      (forall p x, md p = true -> md' p = false -> owned g p x -> g_cell g' x = None) /\
      (forall x p, In (x, p) (g_ext g') <-> In (x, p) (g_ext g) /\ md' p = true).
  Proof.
    intros Hwf. unfold collect. destruct (wf_objects g md Hwf) as [mo [Ho Hmo]].
    destruct (R_elements w (g_objects g) mo Ho) as [xs [X1 [X2 [X3 X4]]]]. rewrite X1. cbn [bind].
    destruct (find_roots_ok g md xs Hwf) as [rs [F1 F2]].
    { intros x Hx. apply X3 in Hx. apply (R_addr w _ _ x Ho Hx). }
    rewrite F1. cbn [bind].
    set (m0 := {| mk_new := ps_new oob; mk_data := g_data g; mk_stack := []; mk_size := 0 |}).
    assert (Hm0 : minv g md m0 empty_set md).
    { constructor; cbn [m0 mk_new mk_data mk_stack].
      - apply reps_new.
      - apply (wf_data g md Hwf).
      - reflexivity.
      - discriminate.
      - discriminate.
      - intros p [].
      - discriminate. }
    destruct (mark_roots_ok g md Hwf rs m0 empty_set md) as [m [mn [mr [M1 [M2 [M3 [M4 M5]]]]]]]; try assumption; try reflexivity.
    { intros x Hx. apply F2 in Hx as [Hx1 Hx2]. apply X3, Hmo in Hx1 as [p Hp]. exists p. auto. }
    { unfold weight, m0. cbn [mk_data mk_stack length]. lia. }
    rewrite M1. cbn [bind].
    destruct (R_elements w (mk_data m) mr (mi_data _ _ _ _ _ M2)) as [ps [P1 [P2 [P3 P4]]]]. rewrite P1. cbn [bind].
    destruct (delete_all_ok ps g (wf_reg g md Hwf)) as [g1 [D1 [D2 [[D3 [D4 [D5 D6]]] [D7 [D8 [D9 D10]]]]]]].
    rewrite D1. cbn [bind].
    assert (Hreach : forall p, mn p = true <-> reach g md p).
    { intros p. split; [apply (mi_reach _ _ _ _ _ M2)|]. intros Hre.
      induction Hre as [x p Hc Hroot|q x p Hq IH Hin Hc].
      - apply (M4 x p); [|exact Hc]. apply F2. split; [|exact Hroot]. apply X3, Hmo. exists p. exact Hc.
      - apply (mi_closed _ _ _ _ _ M2 q IH) with (x := x); try assumption. rewrite M3. intros []. }
    assert (Hps : forall p, In p ps <-> md p = true /\ mn p = false).
    { intros p. rewrite P3. rewrite (mi_split _ _ _ _ _ M2 p). split.
      - intros H. split; [rewrite H; apply orb_true_r|].
        destruct (mn p) eqn:E; [|reflexivity]. apply (mi_disj _ _ _ _ _ M2) in E. congruence.
      - intros [H1 H2]. rewrite H2 in H1. exact H1. }
    assert (Hmnmd : forall p, mn p = true -> md p = true).
    { intros p Hp. apply (reach_md g md p Hwf). apply Hreach. exact Hp. }
    (* a surviving cell *)
    assert (Hsurv : forall x, g_cell g1 x <> None -> g_cell g1 x = g_cell g x /\
              forall p, md p = true -> owned g p x -> mn p = true).
    { intros x Hx. destruct (D10 x) as [H|H]; [contradiction|]. split; [exact H|].
      intros p Hp Hown. destruct (mn p) eqn:E; [reflexivity|]. exfalso. apply Hx.
      apply (D8 p x); [apply Hps; auto|]. unfold frees. destruct Hown as [Hin|Hext]; [left|right; exact Hext].
      apply (inner_slots_in g md p x Hwf Hp); [|exact Hin].
      apply (wf_cell g md Hwf x). rewrite <- H. exact Hx. }
    assert (Hkeep : forall x, (forall p, md p = true -> owned g p x -> mn p = true) -> g_cell g1 x = g_cell g x).
    { intros x Hx. apply D9. intros p Hp Hf. apply Hps in Hp as [Hp1 Hp2].
      assert (mn p = true); [|congruence]. apply (Hx p Hp1). unfold owned.
      destruct Hf as [Hf|Hf]; [left; apply (inner_slots_inside g md p x Hwf Hp1 Hf)|right; exact Hf]. }
    eexists _, mn. split; [reflexivity|]. split; [|split; [exact Hreach|split; [exact D4|split; [exact Hkeep|split]]]].
    - constructor; cbn [g_objects g_data g_cell g_info g_ext].
      + apply D2.
      + apply (mi_new _ _ _ _ _ M2).
      + apply D2.
      + intros x p Hc. destruct (Hsurv x) as [H1 H2]; [congruence|]. rewrite H1 in Hc.
        assert (Hax : addr x) by (apply (wf_cell g md Hwf); congruence).
        apply Hreach. destruct (root_or_inside g md x Hwf Hax) as [Hr|[q [Hq Hin]]].
        * eapply reach_root; eauto.
        * eapply reach_step; [|exact Hin|exact Hc]. apply Hreach. apply (H2 q Hq). left. exact Hin.
      + intros p Hp. rewrite D4. apply (wf_box g md Hwf). auto.
      + intros p q x Hp Hq. unfold inside. cbn [g_info]. rewrite D4. apply (wf_disjoint g md Hwf); auto.
      + intros x p Hin. rewrite D7 in Hin. apply filter_In in Hin as [Hin Hl]. cbn [snd] in Hl.
        destruct (wf_ext g md Hwf x p Hin) as [E1 [E2 E3]].
        assert (Hmn : mn p = true).
        { destruct (mn p) eqn:E; [reflexivity|]. apply negb_true_iff in Hl.
          assert (In p ps) by (apply Hps; auto). apply in_list_ok in H. congruence. }
        split; [exact Hmn|]. split.
        * rewrite Hkeep; [exact E2|]. intros q Hq [Hin'|Hext]; [exfalso; exact (E3 q Hq Hin')|].
          assert (q = p); [|congruence].
          assert (Hnd := wf_ext_nodup g md Hwf). clear - Hnd Hin Hext.
          induction (g_ext g) as [|[a b] l IHl]; [destruct Hin|]. cbn [map fst] in Hnd.
          inversion Hnd as [|? ? Hn1 Hn2]; subst. destruct Hin as [E|Hin], Hext as [E'|Hext].
          -- congruence.
          -- exfalso. apply Hn1. apply in_map_iff. exists (x, q). injection E as -> ->. auto.
          -- exfalso. apply Hn1. apply in_map_iff. exists (x, p). injection E' as -> ->. auto.
          -- apply IHl; assumption.
        * intros q Hq. unfold inside. cbn [g_info]. rewrite D4. apply E3. auto.
      + rewrite D7. assert (Hnd := wf_ext_nodup g md Hwf). clear - Hnd.
        induction (g_ext g) as [|e l IHl]; cbn [filter map]; [constructor|].
        inversion Hnd as [|? ? Hn1 Hn2]; subst.
        destruct (negb (in_list ps (snd e))); [|auto]. cbn [map]. constructor; [|auto].
        intros H. apply Hn1. apply in_map_iff in H as [e' [He' Hin]]. apply filter_In in Hin as [Hin _].
        apply in_map_iff. exists e'. auto.
    - intros p x Hp Hnp Hown. cbn [g_cell].
      destruct (g_cell g1 x) eqn:E; [|reflexivity]. destruct (Hsurv x) as [_ H2]; [congruence|].
      rewrite (H2 p Hp Hown) in Hnp. discriminate.
    - intros x p. cbn [g_ext]. rewrite D7, filter_In. cbn [snd]. split.
      + intros [H1 H2]. split; [exact H1|]. destruct (mn p) eqn:E; [reflexivity|].
        destruct (wf_ext g md Hwf x p H1) as [E1 _].
        assert (In p ps) by (apply Hps; auto). apply in_list_ok in H. rewrite H in H2. discriminate.
      + intros [H1 H2]. split; [exact H1|]. apply negb_true_iff. destruct (in_list ps p) eqn:E; [|reflexivity].
        apply in_list_ok, Hps in E as [_ E]. congruence.
  Qed.
End Heap.
