(** Histories of cell operations, allocations and collections. *)
From Coq Require Import NArith ZArith List Bool Lia ZifyBool ZifyNat ZifyN.
From Verif Require Import PointerSet PointerSetTop Collector CollectorProofs.
Import ListNotations.
Open Scope N_scope.

(** ** Specification *)
Section Spec.
  Variable w : N.
  Notation oob := (Some w).

  (** a datum at address [p] is allocated *)
  Definition live (g : gc) (p : N) : Prop := addr p /\ ps_contains oob (g_data g) p = Some true.
  (** cell [x] is registered *)
  Definition registered (g : gc) (x : N) : Prop := addr x /\ ps_contains oob (g_objects g) x = Some true.

  (** What the C++ program and its runtime must respect.  Memory handed out for
      a new datum does not overlap an allocated datum or a cell it does not
      contain; cells are constructed once, in aligned memory, and destroyed by
      their owner. *)
  Definition permitted (g : gc) (o : gop) : Prop :=
    match o with
    | GImm x => addr x /\ g_cell g x = None
    | GCopy x y => addr x /\ g_cell g x = None /\ g_cell g y <> None
    | GDtor x => g_cell g x <> None /\ (forall p, ~ In (x, p) (g_ext g))
    | GReset pre post x y => exists a c, g_cell g x = Some a /\ g_cell g y = Some c /\
        claim_ok pre (is_ptr (Some a)) /\ claim_ok post (is_ptr (Some c))
    | GNull pre x => exists a, g_cell g x = Some a /\ claim_ok pre (is_ptr (Some a))
    | GMake p base size r =>
        addr p /\ ~ live g p /\ base <= p < base + size /\ base mod 8 = 0 /\ size mod 8 = 0 /\ base + size < 2^47 /\
        (forall q x, live g q -> inside g q x -> ~ (base <= x < base + size)) /\
        (forall x q, In (x, q) (g_ext g) -> ~ (base <= x < base + size)) /\
        addr r /\ g_cell g r = None
    | GAdopt x p => live g p /\ g_cell g x <> None /\ (forall q, live g q -> ~ inside g q x) /\
        (forall q, ~ In (x, q) (g_ext g))
    | GRequest _ | GCollect => True
    end.

  Fixpoint permitted_all (g : gc) (h : list gop) : Prop :=
    match h with
    | [] => True
    | o :: h' => permitted g o /\ forall g', gstep oob g o = Some g' -> permitted_all g' h'
    end.

  (** The program can reach [p]: from a cell that no allocated datum owns,
      through cells owned by reached data. *)
  Inductive usable (g : gc) : N -> Prop :=
  | usable_root x p : g_cell g x = Some (Some p) -> (forall q, live g q -> ~ owned g q x) -> usable g p
  | usable_step q x p : usable g q -> owned g q x -> g_cell g x = Some (Some p) -> usable g p.

  (** ** Proofs *)
  Lemma live_md g md p : wf w g md -> (live g p <-> md p = true).
  Proof.
    intros Hwf. split.
    - intros [Ha Hc]. rewrite (R_contains w _ md p (wf_data w g md Hwf) Ha) in Hc. congruence.
    - intros H. assert (Ha := R_addr w _ _ p (wf_data w g md Hwf) H). split; [exact Ha|].
      rewrite (R_contains w _ md p (wf_data w g md Hwf) Ha). congruence.
  Qed.

  Lemma wf_init : wf w (gc_init oob) empty_set.
  Proof.
    constructor; cbn [gc_init g_objects g_data g_cell g_info g_ext]; try discriminate; try congruence.
    - exists empty_set. split; [apply reps_new|]. intros x. split; [discriminate|]. intros [p H]. discriminate.
    - apply reps_new.
    - intros x p [].
    - constructor.
  Qed.

  (** Changing one cell keeps a well-formed heap well-formed. *)
  Lemma cell_set_wf g md g' x c : wf w g md -> cell_set w g g' x c ->
    (forall p, c = Some (Some p) -> md p = true) ->
    (c = None -> forall p, ~ In (x, p) (g_ext g)) -> wf w g' md.
  Proof.
    intros Hwf [[Hr1 Hr2] [Hc [Hd [Hi [He [_ _]]]]]] Hp Hn. constructor.
    - exact Hr1.
    - rewrite Hd. apply (wf_data w g md Hwf).
    - exact Hr2.
    - intros y p. rewrite Hc. destruct (N.eqb_spec y x) as [->|]; [apply Hp|apply (wf_ptr w g md Hwf)].
    - rewrite Hi. apply (wf_box w g md Hwf).
    - unfold inside. rewrite Hi. apply (wf_disjoint w g md Hwf).
    - intros y p. rewrite He. intros Hin. destruct (wf_ext w g md Hwf y p Hin) as [E1 [E2 E3]].
      split; [exact E1|]. split; [|unfold inside; rewrite Hi; exact E3].
      rewrite Hc. destruct (N.eqb_spec y x) as [->|]; [|exact E2].
      intros ->. exact (Hn eq_refl p Hin).
    - rewrite He. apply (wf_ext_nodup w g md Hwf).
  Qed.

  Lemma step_ok g md o : wf w g md -> permitted g o ->
    exists g' md', gstep oob g o = Some g' /\ wf w g' md'.
  Proof.
    intros Hwf Hp. assert (Hreg := wf_reg w g md Hwf). destruct o as [x|x y|x|pre post x y|pre x|p base size r|x p|n|]; cbn [gstep permitted] in *.
    - destruct Hp as [Ha Hc]. destruct (ctor_immediate_ok w g x Hreg Ha Hc) as [g' [H1 H2]].
      exists g', md. split; [exact H1|]. apply (cell_set_wf g md g' x _ Hwf H2); congruence.
    - destruct Hp as [Ha [Hc Hy]]. destruct (g_cell g y) as [c|] eqn:Ey; [|contradiction].
      destruct (ctor_copy_ok w g x y c Hreg Ha Hc Ey) as [g' [H1 H2]].
      exists g', md. split; [exact H1|]. apply (cell_set_wf g md g' x _ Hwf H2); [|congruence].
      intros p [= ->]. eapply wf_ptr; eauto.
    - destruct Hp as [Hc He]. destruct (g_cell g x) as [c|] eqn:Ex; [|contradiction].
      destruct (dtor_ok w g x c Hreg Ex) as [g' [H1 H2]].
      exists g', md. split; [exact H1|]. apply (cell_set_wf g md g' x _ Hwf H2); [discriminate|auto].
    - destruct Hp as [a [c [Hx [Hy [Hk1 Hk2]]]]].
      destruct (reset_copy_ok w pre post g x y a c Hreg Hx Hy Hk1 Hk2) as [g' [H1 H2]].
      exists g', md. split; [exact H1|]. apply (cell_set_wf g md g' x _ Hwf H2); [|congruence].
      intros p [= ->]. eapply wf_ptr; eauto.
    - destruct Hp as [a [Hx Hk]].
      destruct (reset_null_ok w pre g x a Hreg Hx Hk) as [g' [H1 H2]].
      exists g', md. split; [exact H1|]. apply (cell_set_wf g md g' x _ Hwf H2); congruence.
    - destruct Hp as [Ha [Hnl [Hin [Hb [Hs [Hlt [Hdis [Hext [Har Hcr]]]]]]]]].
      assert (Hmp : md p = false).
      { destruct (md p) eqn:E; [|reflexivity]. exfalso. apply Hnl. apply (live_md g md p Hwf). exact E. }
      unfold make_datum. destruct (R_insert w _ md p (wf_data w g md Hwf) Ha Hmp) as [d [D1 D2]]. rewrite D1. cbn [bind].
      set (g1 := {| g_objects := g_objects g; g_data := d; g_cell := g_cell g; g_info := upd (g_info g) p (base, size);
                    g_ext := g_ext g; g_size := g_size g; g_capacity := g_capacity g |}).
      assert (Hinfo : forall q, md q = true -> g_info g1 q = g_info g q).
      { intros q Hq. unfold g1. cbn [g_info]. unfold upd. destruct (N.eqb_spec q p) as [->|]; [congruence|reflexivity]. }
      assert (Hinfop : g_info g1 p = (base, size)).
      { unfold g1. cbn [g_info]. unfold upd. rewrite N.eqb_refl. reflexivity. }
      assert (Hwf1 : wf w g1 (after md (Insert p))).
      { constructor.
        - apply (wf_objects w g md Hwf).
        - exact D2.
        - apply (wf_cell w g md Hwf).
        - intros y q Hy. cbn [after]. rewrite (wf_ptr w g md Hwf y q Hy). apply orb_true_r.
        - intros q. cbn [after]. destruct (N.eqb_spec q p) as [->|]; cbn [orb].
          + intros _. rewrite Hinfop. auto.
          + intros Hq. rewrite Hinfo by exact Hq. apply (wf_box w g md Hwf). exact Hq.
        - intros q1 q2 y. cbn [after]. unfold inside.
          destruct (N.eqb_spec q1 p) as [->|N1]; destruct (N.eqb_spec q2 p) as [->|N2]; cbn [orb]; intros H1 H2.
          + reflexivity.
          + rewrite Hinfop, (Hinfo q2 H2). intros H3 H4. exfalso.
            apply (Hdis q2 y); [apply (live_md g md q2 Hwf); exact H2|exact H4|exact H3].
          + rewrite Hinfop, (Hinfo q1 H1). intros H3 H4. exfalso.
            apply (Hdis q1 y); [apply (live_md g md q1 Hwf); exact H1|exact H3|exact H4].
          + rewrite (Hinfo q1 H1), (Hinfo q2 H2). apply (wf_disjoint w g md Hwf); assumption.
        - intros y q Hyq. destruct (wf_ext w g md Hwf y q Hyq) as [E1 [E2 E3]].
          split; [cbn [after]; rewrite E1; apply orb_true_r|]. split; [exact E2|].
          intros z. cbn [after]. unfold inside. destruct (N.eqb_spec z p) as [->|]; cbn [orb].
          + intros _. rewrite Hinfop. apply (Hext y q). exact Hyq.
          + intros Hz. rewrite (Hinfo z Hz). apply E3. exact Hz.
        - apply (wf_ext_nodup w g md Hwf). }
      destruct (ctor_pair_ok w g1 r p (wf_reg w g1 _ Hwf1) Har Hcr) as [g' [H1 H2]].
      exists g', (after md (Insert p)). split; [exact H1|].
      apply (cell_set_wf g1 (after md (Insert p)) g' r _ Hwf1 H2); [|congruence]. intros q [= <-]. cbn [after]. rewrite N.eqb_refl. reflexivity.
    - destruct Hp as [Hl [Hc [Hni Hne]]]. eexists _, md. split; [reflexivity|].
      constructor; cbn [g_objects g_data g_cell g_info g_ext]; try apply Hwf.
      + intros y q [[= <- <-]|Hin]; [|apply (wf_ext w g md Hwf); exact Hin].
        split; [apply (live_md g md p Hwf); exact Hl|]. split; [exact Hc|].
        intros z Hz. apply Hni. apply (live_md g md z Hwf). exact Hz.
      + cbn [map fst]. constructor; [|apply (wf_ext_nodup w g md Hwf)].
        intros H. apply in_map_iff in H as [[a b] [Ha Hb]]. cbn in Ha. subst a. exact (Hne b Hb).
    - unfold request. cbv zeta.
      set (g1 := {| g_objects := g_objects g; g_data := g_data g; g_cell := g_cell g; g_info := g_info g;
                    g_ext := g_ext g; g_size := g_size g + n; g_capacity := g_capacity g |}).
      assert (Hwf1 : wf w g1 md) by (constructor; cbn [g1 g_objects g_data g_cell g_info g_ext]; apply Hwf).
      destruct (g_capacity g1 <? g_size g1).
      + destruct (collect_ok w g1 md Hwf1) as [g' [md' [H1 [H2 _]]]]. exists g', md'. auto.
      + exists g1, md. auto.
    - destruct (collect_ok w g md Hwf) as [g' [md' [H1 [H2 _]]]]. exists g', md'. auto.
  Qed.

  Lemma run_ok h : forall g md, wf w g md -> permitted_all g h ->
    exists g' md', grun oob g h = Some g' /\ wf w g' md'.
  Proof.
    induction h as [|o h IH]; intros g md Hwf Hp; cbn [grun].
    - exists g, md. auto.
    - destruct Hp as [Ho Hh]. destruct (step_ok g md o Hwf Ho) as [g1 [md1 [S1 S2]]]. rewrite S1. cbn [bind].
      apply (IH g1 md1 S2). apply Hh. exact S1.
  Qed.

  (** C07 *)
  Lemma registry_exact h : permitted_all (gc_init oob) h ->
    exists g, grun oob (gc_init oob) h = Some g /\
      forall x, registered g x <-> exists p, g_cell g x = Some (Some p).
  Proof.
    intros Hp. destruct (run_ok h _ _ wf_init Hp) as [g [md [H1 Hwf]]]. exists g. split; [exact H1|].
    destruct (wf_objects w g md Hwf) as [mo [Ho Hmo]]. intros x. rewrite <- Hmo. split.
    - intros [Ha Hc]. rewrite (R_contains w _ mo x Ho Ha) in Hc. congruence.
    - intros H. assert (Ha := R_addr w _ _ x Ho H). split; [exact Ha|].
      rewrite (R_contains w _ mo x Ho Ha). congruence.
  Qed.

  Lemma no_dangling h : permitted_all (gc_init oob) h ->
    exists g, grun oob (gc_init oob) h = Some g /\ forall x p, g_cell g x = Some (Some p) -> live g p.
  Proof.
    intros Hp. destruct (run_ok h _ _ wf_init Hp) as [g [md [H1 Hwf]]]. exists g. split; [exact H1|].
    intros x p Hc. apply (live_md g md p Hwf). eapply wf_ptr; eauto.
  Qed.

  Lemma usable_reach g md p : wf w g md -> usable g p -> reach_over g (fun q => md q = true) p.
  Proof.
    intros Hwf H. induction H as [x p Hc Hr|q x p Hq IH Ho Hc].
    - eapply reach_root; [exact Hc|]. intros q Hq Hin. apply (Hr q); [apply (live_md g md q Hwf); exact Hq|].
      left. exact Hin.
    - destruct Ho as [Hin|Hext].
      + eapply reach_step; eauto.
      + eapply reach_root; [exact Hc|]. destruct (wf_ext w g md Hwf x q Hext) as [_ [_ E3]]. exact E3.
  Qed.

  (** C05 *)
  Lemma collect_keeps h g : permitted_all (gc_init oob) h -> grun oob (gc_init oob) h = Some g ->
    exists g', collect oob g = Some g' /\
      (forall p, usable g p -> live g' p /\ g_info g' p = g_info g p /\
         forall x, owned g p x -> g_cell g' x = g_cell g x) /\
      (forall x, (forall q, live g q -> ~ owned g q x) -> g_cell g' x = g_cell g x).
  Proof.
    intros Hp Hg. destruct (run_ok h _ _ wf_init Hp) as [g0 [md [H1 Hwf]]].
    rewrite Hg in H1. injection H1 as <-.
    destruct (collect_ok w g md Hwf) as [g' [md' [C1 [C2 [C3 [C4 [C5 [C6 C7]]]]]]]].
    exists g'. split; [exact C1|]. split.
    - intros p Hu. assert (Hre := usable_reach g md p Hwf Hu).
      assert (Hmd' : md' p = true) by (apply C3; exact Hre).
      split; [apply (live_md g' md' p C2); exact Hmd'|]. split; [rewrite C4; reflexivity|].
      intros x Hx. apply C5. intros q Hq Hown.
      assert (q = p); [|congruence].
      assert (Hmp := reach_md w g md p Hwf Hre).
      destruct Hx as [Hin|Hext], Hown as [Hin'|Hext'].
      + apply (wf_disjoint w g md Hwf q p x); assumption.
      + destruct (wf_ext w g md Hwf x q Hext') as [_ [_ E3]]. exfalso. exact (E3 p Hmp Hin).
      + destruct (wf_ext w g md Hwf x p Hext) as [_ [_ E3]]. exfalso. exact (E3 q Hq Hin').
      + assert (Hnd := wf_ext_nodup w g md Hwf). clear - Hnd Hext Hext'.
        induction (g_ext g) as [|[a b] l IHl]; [destruct Hext|]. cbn [map fst] in Hnd.
        inversion Hnd as [|? ? Hn1 Hn2]; subst. destruct Hext as [E|Hext], Hext' as [E'|Hext'].
        * congruence.
        * exfalso. apply Hn1. apply in_map_iff. exists (x, q). injection E as -> ->. auto.
        * exfalso. apply Hn1. apply in_map_iff. exists (x, p). injection E' as -> ->. auto.
        * apply IHl; assumption.
    - intros x Hx. apply C5. intros q Hq Hown. exfalso. apply (Hx q); [apply (live_md g md q Hwf); exact Hq|exact Hown].
  Qed.

  Lemma reach_over_ext g L L' p : (forall q, L q <-> L' q) -> reach_over g L p -> reach_over g L' p.
  Proof.
    intros E H. induction H as [x p Hc Hr|q x p Hq IH Hin Hc].
    - eapply reach_root; [exact Hc|]. intros q Hq. apply Hr. apply E. exact Hq.
    - eapply reach_step; eauto.
  Qed.

  (** C06 *)
  Lemma collect_exact h g : permitted_all (gc_init oob) h -> grun oob (gc_init oob) h = Some g ->
    exists g', collect oob g = Some g' /\
      (forall p, live g' p <-> reach_over g (live g) p) /\
      (forall p x, live g p -> ~ live g' p -> owned g p x -> g_cell g' x = None).
  Proof.
    intros Hp Hg. destruct (run_ok h _ _ wf_init Hp) as [g0 [md [H1 Hwf]]].
    rewrite Hg in H1. injection H1 as <-.
    destruct (collect_ok w g md Hwf) as [g' [md' [C1 [C2 [C3 [C4 [C5 [C6 C7]]]]]]]].
    exists g'. split; [exact C1|]. split.
    - intros p. rewrite (live_md g' md' p C2), C3. split; apply reach_over_ext; intros q; rewrite (live_md g md q Hwf); reflexivity.
    - intros p x Hl Hnl Hown. apply (C6 p x); [apply (live_md g md p Hwf); exact Hl| |exact Hown].
      destruct (md' p) eqn:E; [|reflexivity]. exfalso. apply Hnl. apply (live_md g' md' p C2). exact E.
  Qed.

  (** Without data owned outside the binders, collecting is exact with respect
      to what the program can use, and a second collection frees nothing. *)
  Lemma collect_exact_plain h g : permitted_all (gc_init oob) h -> grun oob (gc_init oob) h = Some g ->
    g_ext g = [] ->
    exists g' g'', collect oob g = Some g' /\ collect oob g' = Some g'' /\
      (forall p, live g' p <-> usable g p) /\ (forall p, live g'' p <-> live g' p).
  Proof.
    intros Hp Hg He. destruct (run_ok h _ _ wf_init Hp) as [g0 [md [H1 Hwf]]].
    rewrite Hg in H1. injection H1 as <-.
    destruct (collect_ok w g md Hwf) as [g' [md' [C1 [C2 [C3 [C4 [C5 [C6 C7]]]]]]]].
    destruct (collect_ok w g' md' C2) as [g'' [md'' [D1 [D2 [D3 _]]]]].
    exists g', g''. split; [exact C1|]. split; [exact D1|].
    assert (Hus : forall p, reach_over g (fun q => md q = true) p -> usable g p).
    { intros p H. induction H as [x p Hc Hr|q x p Hq IH Hin Hc].
      - eapply usable_root; [exact Hc|]. intros q Hq [Hin|Hext].
        + apply (Hr q); [apply (live_md g md q Hwf); exact Hq|exact Hin].
        + rewrite He in Hext. destruct Hext.
      - eapply usable_step; [exact IH|left; exact Hin|exact Hc]. }
    split.
    - intros p. rewrite (live_md g' md' p C2), C3. split; [apply Hus|apply usable_reach; exact Hwf].
    - intros p. rewrite (live_md g' md' p C2), (live_md g'' md'' p D2). split.
      + intros H. apply D3 in H. apply (reach_md w g' md' p C2). exact H.
      + intros H. apply D3. apply C3 in H.
        induction H as [x p Hc Hr|q x p Hq IH Hin Hc].
        * assert (Hc' : g_cell g' x = Some (Some p)).
          { rewrite C5; [exact Hc|]. intros q Hq [Hin|Hext]; [exfalso; exact (Hr q Hq Hin)|]. rewrite He in Hext. destruct Hext. }
          eapply reach_root; [exact Hc'|]. intros q Hq. unfold inside. rewrite C4.
          apply Hr. apply (reach_md w g md q Hwf). apply C3. exact Hq.
        * assert (Hc' : g_cell g' x = Some (Some p)).
          { rewrite C5; [exact Hc|]. intros q' Hq' [Hin'|Hext].
            - assert (q' = q); [|subst q'; apply C3; exact Hq].
              apply (wf_disjoint w g md Hwf q' q x); try assumption. apply (reach_md w g md q Hwf Hq).
            - rewrite He in Hext. destruct Hext. }
          eapply reach_step; [exact IH| |exact Hc']. unfold inside. rewrite C4. exact Hin.
  Qed.
End Spec.
