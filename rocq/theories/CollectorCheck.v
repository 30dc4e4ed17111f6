(** A decision procedure for [permitted_all], to exhibit concrete histories. *)
From Coq Require Import NArith ZArith List Bool Lia ZifyBool ZifyNat ZifyN.
From Verif Require Import PointerSet PointerSetTop Collector CollectorProofs CollectorHistory.
Import ListNotations.
Open Scope N_scope.

Section Check.
  Variable w : N.
  Notation oob := (Some w).

  Definition addrb (a : N) : bool := (a mod 8 =? 0) && (a <? 2^47).
  Definition cellb (g : gc) (x : N) : bool := match g_cell g x with Some _ => true | None => false end.
  Definition claimb (k : cond) (b : bool) : bool :=
    match k with Identity => true | Truthy => b | Falsy => negb b end.
  Definition lives (g : gc) : list N := match ps_elements oob (g_data g) with Some l => l | None => [] end.
  Definition insideb (g : gc) (p x : N) : bool := let (b, s) := g_info g p in (b <=? x) && (x <? b + s).

  Definition permittedb (g : gc) (o : gop) : bool :=
    match o with
    | GImm x => addrb x && negb (cellb g x)
    | GCopy x y => addrb x && negb (cellb g x) && cellb g y
    | GDtor x => cellb g x && forallb (fun e => negb (fst e =? x)) (g_ext g)
    | GReset pre post x y => cellb g x && cellb g y && claimb pre (is_ptr (g_cell g x)) && claimb post (is_ptr (g_cell g y))
    | GNull pre x => cellb g x && claimb pre (is_ptr (g_cell g x))
    | GMake p base size r =>
        addrb p && forallb (fun q => negb (q =? p)) (lives g) && (base <=? p) && (p <? base + size) &&
        (base mod 8 =? 0) && (size mod 8 =? 0) && (base + size <? 2^47) &&
        forallb (fun q => let (b, s) := g_info g q in (b + s <=? base) || (base + size <=? b)) (lives g) &&
        forallb (fun e => negb ((base <=? fst e) && (fst e <? base + size))) (g_ext g) &&
        addrb r && negb (cellb g r)
    | GAdopt x p => existsb (N.eqb p) (lives g) && cellb g x && forallb (fun q => negb (insideb g q x)) (lives g) &&
        forallb (fun e => negb (fst e =? x)) (g_ext g)
    | GRequest _ | GCollect => true
    end.

  Fixpoint permitted_allb (g : gc) (h : list gop) : bool :=
    match h with
    | [] => true
    | o :: h' => permittedb g o && match gstep oob g o with Some g' => permitted_allb g' h' | None => false end
    end.

  Lemma addrb_ok a : addrb a = true -> addr a.
  Proof. unfold addrb, addr. lia. Qed.

  Lemma lives_ok g md q : wf w g md -> (live w g q <-> In q (lives g)).
  Proof.
    intros Hwf. unfold lives. destruct (R_elements w (g_data g) md (wf_data w g md Hwf)) as [l [E1 [_ [E2 _]]]].
    rewrite E1. rewrite E2. apply live_md. exact Hwf.
  Qed.

  Lemma permittedb_ok g md o : wf w g md -> permittedb g o = true -> permitted w g o.
  Proof.
    intros Hwf. unfold permittedb, permitted, cellb. destruct o as [x|x y|x|pre post x y|pre x|p base size r|x p|n|];
      rewrite ?andb_true_iff; try exact (fun _ => Logic.I).
    - intros [H1 H2]. split; [apply addrb_ok; exact H1|]. destruct (g_cell g x); [discriminate|reflexivity].
    - intros [[H1 H2] H3]. split; [apply addrb_ok; exact H1|].
      destruct (g_cell g x); [discriminate|]. destruct (g_cell g y); [|discriminate]. split; congruence.
    - intros [H1 H2]. destruct (g_cell g x); [|discriminate]. split; [congruence|].
      intros p Hin. rewrite forallb_forall in H2. apply H2 in Hin. cbn [fst] in Hin.
      rewrite N.eqb_refl in Hin. discriminate.
    - intros [[[H1 H2] H3] H4]. destruct (g_cell g x) as [a|]; [|discriminate]. destruct (g_cell g y) as [c|]; [|discriminate].
      exists a, c. split; [reflexivity|]. split; [reflexivity|].
      destruct pre, post; cbn [claimb claim_ok] in *; rewrite ?negb_true_iff in *; auto.
    - intros [H1 H2]. destruct (g_cell g x) as [a|]; [|discriminate].
      exists a. split; [reflexivity|]. destruct pre; cbn [claimb claim_ok] in *; rewrite ?negb_true_iff in *; auto.
    - intros [[[[[[[[[[H1 H2] H3] H4] H5] H6] H7] H8] H9] H10] H11].
      split; [apply addrb_ok; exact H1|]. split.
      { intros Hl. apply (lives_ok g md p Hwf) in Hl. rewrite forallb_forall in H2. apply H2 in Hl.
        rewrite N.eqb_refl in Hl. discriminate. }
      split; [lia|]. split; [lia|]. split; [lia|]. split; [lia|]. split.
      { intros q y Hq Hin. apply (lives_ok g md q Hwf) in Hq. rewrite forallb_forall in H8. apply H8 in Hq.
        unfold inside in Hin. destruct (g_info g q) as [b s]. lia. }
      split.
      { intros y q Hin. rewrite forallb_forall in H9. apply H9 in Hin. cbn [fst] in Hin. lia. }
      split; [apply addrb_ok; exact H10|]. destruct (g_cell g r); [discriminate|reflexivity].
    - intros [[[H1 H2] H3] H4]. split.
      { apply (lives_ok g md p Hwf). apply existsb_exists in H1 as [q [Hq E]]. apply N.eqb_eq in E as ->. exact Hq. }
      split; [destruct (g_cell g x); [congruence|discriminate]|]. split.
      { intros q Hq Hin. apply (lives_ok g md q Hwf) in Hq. rewrite forallb_forall in H3. apply H3 in Hq.
        unfold insideb, inside in *. destruct (g_info g q) as [b s]. lia. }
      intros q Hin. rewrite forallb_forall in H4. apply H4 in Hin. cbn [fst] in Hin. rewrite N.eqb_refl in Hin. discriminate.
  Qed.

  Lemma permitted_allb_ok h : forall g md, wf w g md -> permitted_allb g h = true -> permitted_all w g h.
  Proof.
    induction h as [|o h IH]; intros g md Hwf; cbn [permitted_allb permitted_all]; [auto|].
    rewrite andb_true_iff. intros [H1 H2]. assert (Hp := permittedb_ok g md o Hwf H1). split; [exact Hp|].
    intros g' Hg'. rewrite Hg' in H2.
    destruct (step_ok w g md o Hwf Hp) as [g1 [md1 [S1 S2]]]. rewrite S1 in Hg'. injection Hg' as <-.
    apply (IH g1 md1 S2 H2).
  Qed.

  Lemma check_ok h : permitted_allb (gc_init oob) h = true -> permitted_all w (gc_init oob) h.
  Proof. apply (permitted_allb_ok h _ _ (wf_init w)). Qed.

  (** the cells that hold a pointer *)
  Definition pointers (g : gc) : list N := match ps_elements oob (g_objects g) with Some l => l | None => [] end.
  Lemma pointers_ok h g x p : permitted_all w (gc_init oob) h -> grun oob (gc_init oob) h = Some g ->
    g_cell g x = Some (Some p) -> In x (pointers g).
  Proof.
    intros Hp Hg Hc. destruct (run_ok w h _ _ (wf_init w) Hp) as [g0 [md [H1 Hwf]]].
    rewrite Hg in H1. injection H1 as <-.
    destruct (wf_objects w g md Hwf) as [mo [Ho Hmo]].
    destruct (R_elements w (g_objects g) mo Ho) as [l [E1 [_ [E2 _]]]].
    unfold pointers. rewrite E1. apply E2, Hmo. exists p. exact Hc.
  Qed.

  (** ** Garbage that is not collected

      A datum at 0x1000 (24 bytes, as if a vector object) owning the one cell
      0x8000 of its buffer, which refers back to it; the only variable, 0x9000,
      is destroyed. *)
  Definition self_vector : list gop :=
    [GImm 0x8000; GMake 0x1008 0x1000 24 0x9000; GAdopt 0x8000 0x1008;
     GReset Identity Identity 0x8000 0x9000; GDtor 0x9000].

  (** A vector whose buffer cell refers to a pair at 0x2000; the variable is
      destroyed. *)
  Definition vector_of_pair : list gop :=
    [GImm 0x2000; GImm 0x2008; GMake 0x2000 0x2000 40 0x9008;
     GCopy 0x8000 0x9008; GDtor 0x9008;
     GMake 0x1008 0x1000 24 0x9000; GAdopt 0x8000 0x1008; GDtor 0x9000].
End Check.
Lemma self_vector_leaks : permitted_all 0 (gc_init (Some 0)) self_vector /\
  exists g g', grun (Some 0) (gc_init (Some 0)) self_vector = Some g /\
    (forall p, ~ usable 0 g p) /\ collect (Some 0) g = Some g' /\ live 0 g' 0x1008.
Proof.
  assert (Hp : permitted_all 0 (gc_init (Some 0)) self_vector) by (apply check_ok; vm_compute; reflexivity).
  split; [exact Hp|].
  destruct (run_ok 0 self_vector _ _ (wf_init 0) Hp) as [g [md [Hg Hwf]]].
  destruct (collect_ok 0 g md Hwf) as [g' [md' [Hc [Hwf' _]]]].
  exists g, g'. split; [exact Hg|]. split; [|split; [exact Hc|]].
  - assert (Hptr : pointers 0 g = [0x8000]).
    { assert (E : match grun (Some 0) (gc_init (Some 0)) self_vector with Some g => pointers 0 g | None => [] end = [0x8000])
        by (vm_compute; reflexivity). rewrite Hg in E. exact E. }
    assert (Hext : g_ext g = [(0x8000, 0x1008)]).
    { assert (E : match grun (Some 0) (gc_init (Some 0)) self_vector with Some g => g_ext g | None => [] end = [(0x8000, 0x1008)])
        by (vm_compute; reflexivity). rewrite Hg in E. exact E. }
    assert (Hl : lives 0 g = [0x1008]).
    { assert (E : match grun (Some 0) (gc_init (Some 0)) self_vector with Some g => lives 0 g | None => [] end = [0x1008])
        by (vm_compute; reflexivity). rewrite Hg in E. exact E. }
    intros p Hu. induction Hu as [x p Hcell Hr|q x p Hq IH Ho Hcell]; [|exact IH].
    assert (Hx := pointers_ok 0 self_vector g x p Hp Hg Hcell). rewrite Hptr in Hx. destruct Hx as [<-|[]].
    apply (Hr 0x1008).
    + apply (lives_ok 0 g md 0x1008 Hwf). rewrite Hl. left. reflexivity.
    + right. rewrite Hext. left. reflexivity.
  - apply (lives_ok 0 g' md' 0x1008 Hwf').
    assert (E : match grun (Some 0) (gc_init (Some 0)) self_vector with
                | Some g => match collect (Some 0) g with Some g' => lives 0 g' | None => [] end | None => [] end = [0x1008])
      by (vm_compute; reflexivity).
    rewrite Hg, Hc in E. rewrite E. left. reflexivity.
Qed.

Lemma second_collection_frees : permitted_all 0 (gc_init (Some 0)) vector_of_pair /\
  exists g g' g'', grun (Some 0) (gc_init (Some 0)) vector_of_pair = Some g /\
    collect (Some 0) g = Some g' /\ live 0 g' 0x2000 /\
    collect (Some 0) g' = Some g'' /\ ~ live 0 g'' 0x2000.
Proof.
  assert (Hp : permitted_all 0 (gc_init (Some 0)) vector_of_pair) by (apply check_ok; vm_compute; reflexivity).
  split; [exact Hp|].
  destruct (run_ok 0 vector_of_pair _ _ (wf_init 0) Hp) as [g [md [Hg Hwf]]].
  destruct (collect_ok 0 g md Hwf) as [g' [md' [Hc [Hwf' _]]]].
  destruct (collect_ok 0 g' md' Hwf') as [g'' [md'' [Hc' [Hwf'' _]]]].
  exists g, g', g''. split; [exact Hg|]. split; [exact Hc|].
  assert (E : match grun (Some 0) (gc_init (Some 0)) vector_of_pair with
              | Some g => match collect (Some 0) g with
                          | Some g' => (lives 0 g', match collect (Some 0) g' with Some g'' => lives 0 g'' | None => [1] end)
                          | None => ([], []) end
              | None => ([], []) end = ([0x2000], [])) by (vm_compute; reflexivity).
  rewrite Hg, Hc, Hc' in E. injection E as E1 E2.
  split; [apply (lives_ok 0 g' md' _ Hwf'); rewrite E1; left; reflexivity|]. split; [exact Hc'|].
  rewrite (lives_ok 0 g'' md'' _ Hwf''), E2. intros [].
Qed.
