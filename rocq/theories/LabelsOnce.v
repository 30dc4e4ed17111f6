(** write-shared describes every pair and every vector (but empty ones) once only, so what it
    writes is read as an object with the same sharing. *)
From Coq Require Import List Arith Lia.
From Verif Require Import Lists ListPredicates Labels LabelsSpec LabelsProofs LabelsShared LabelsEvery Tells ReadShared ReadSharedSpec ReadSharedProofs ReadSharedAlike.
Import ListNotations.

Section Once.
Variable h : store.
Variable root : val.
Variable base : alist.
Hypothesis U : unnumbered base.
Hypothesis Plain : scope_al base = [].
Hypothesis Marks : forall w, interesting h w = true -> shared h root w -> assq w base = Some T.
Hypothesis Sound : sound h.
Hypothesis Valid : forall w, reach h root w -> valid h w.
Notation winv := (LabelsShared.inv base).

(** The references followed so far, and the objects described so far *)
Record state (al : alist) (Ev : list event) (Dn : list nat) : Prop := {
  st_inv : exists m, winv m al;
  st_mark : forall p, In p Dn -> assq (Ptr p) al <> Some T;
  st_from : forall p, In p Dn -> assq (Ptr p) base = Some F -> exists r, In r Ev /\ refers h root r (Ptr p);
  st_ref : forall p i, In (Some (p, i)) Ev -> In p Dn }.
Record outcome (Ev : list event) (Dn : list nat) (al' : alist) (D : list nat) (Ev' : list event) : Prop := {
  oc_once : NoDup D;
  oc_new : forall q, In q D -> ~ In q Dn;
  oc_state : state al' Ev' (D ++ Dn);
  oc_more : incl Ev Ev';
  oc_ev : forall x, In x Ev' -> In x Ev \/ exists q i, x = Some (q, i) /\ In q D }.
Lemma state_add al Ev Dn r : state al Ev Dn -> (forall o i, r = Some (o, i) -> In o Dn) -> state al (r :: Ev) Dn.
Proof.
  intros [a b c d] R. constructor; auto.
  - intros p I F. destruct (c p I F) as (s & J & K). exists s. split; [right; exact J|exact K].
  - intros p i [X|I]; [eapply R; exact X|eapply d; exact I].
Qed.
Lemma outcome_refl al Ev Dn : state al Ev Dn -> outcome Ev Dn al [] Ev.
Proof. intros S. constructor; auto; [constructor|apply incl_refl]. Qed.
Definition asked (Ev : list event) (Dn : list nat) (r : event) (v : val) : Prop :=
  refers h root r v /\ ~ In r Ev /\ (forall o i, r = Some (o, i) -> In o Dn) /\ reach h root v.
Definition obj_once (al : alist) (v : val) (ts : list token) (al' : alist) : Prop := forall Ev Dn r, state al Ev Dn -> asked Ev Dn r v ->
  exists D Ev', outcome (r :: Ev) Dn al' D Ev' /\ tells h (scope_al al) ts v (scope_al al') D.
Definition cdr_once (al : alist) (v : val) (ts : list token) (al' : alist) : Prop := forall Ev Dn r, state al Ev Dn -> asked Ev Dn r v ->
  exists D Ev', outcome (r :: Ev) Dn al' D Ev' /\ tells_rest h (scope_al al) ts v (scope_al al') D.
Definition body_once (al : alist) (v : val) (ts : list token) (al' : alist) : Prop := forall Ev Dn, state al Ev Dn -> interesting h v = true ->
  (forall p, v = Ptr p -> ~ In p Dn /\ assq (Ptr p) al <> Some T /\ (assq (Ptr p) base = Some F -> exists r, In r Ev /\ refers h root r (Ptr p))) -> reach h root v ->
  exists D Ev', outcome Ev Dn al' D Ev' /\ tells h (scope_al al) ts v (scope_al al') D /\ forall n, ts <> [TUse n].

Lemma asked_part Ev Dn p i o c : In p Dn -> (forall j, i <= j -> ~ In (Some (p, j)) Ev) -> reach h root (Ptr p) -> nth_error h p = Some o -> nth_error (parts o) i = Some c ->
  asked Ev Dn (Some (p, i)) c.
Proof.
  intros I N R E X. assert (Rf : refers h root (Some (p, i)) c) by (split; [exact R|eauto]).
  split; [exact Rf|]. split; [apply N; lia|]. split; [intros o' j [= <- <-]; exact I|]. eapply Reach_step; [exact R|eapply child_refers; exact Rf].
Qed.
Lemma no_later Ev Dn p i al D Ev' : In p Dn -> outcome (Some (p, i) :: Ev) Dn al D Ev' -> (forall j, i <= j -> ~ In (Some (p, j)) Ev) -> forall j, S i <= j -> ~ In (Some (p, j)) Ev'.
Proof.
  intros I O N j L J. destruct (oc_ev _ _ _ _ _ O _ J) as [[[= X]|K]|(q & k & [= <- <-] & K)]; [lia|apply (N j); [lia|exact K]|].
  exact (oc_new _ _ _ _ _ O p K I).
Qed.
(** The parts of a vector from the i-th on *)
Lemma each_once f p o : (forall al v ts al', f al v = Done (ts, al') -> obj_once al v ts al') -> nth_error h p = Some o -> reach h root (Ptr p) ->
  forall vs i al ts al' Ev Dn, (forall j c, nth_error vs j = Some c -> nth_error (parts o) (i + j) = Some c) -> each_obj f al vs = Done (ts, al') ->
  state al Ev Dn -> In p Dn -> (forall j, i <= j -> ~ In (Some (p, j)) Ev) ->
  exists D Ev', NoDup D /\ (forall q, In q D -> ~ In q Dn) /\ state al' Ev' (D ++ Dn) /\ incl Ev Ev' /\
    (forall x, In x Ev' -> In x Ev \/ exists q i, x = Some (q, i) /\ (q = p \/ In q D)) /\ tells_all h (scope_al al) ts vs (scope_al al') D.
Proof.
  intros Ob Np Rp. induction vs as [|v vs IH]; intros i al ts al' Ev Dn X H S I N; cbn [each_obj] in H.
  - injection H as <- <-. exists [], Ev. split; [constructor|]. split; [intros q []|]. split; [exact S|]. split; [apply incl_refl|]. split; [auto|constructor].
  - apply bind_done in H. destruct H as ((us & b) & H1 & H2). apply bind_done in H2. destruct H2 as ((ws & c) & H2 & H3). injection H3 as <- <-.
    assert (X0 : nth_error (parts o) i = Some v) by (rewrite <- (Nat.add_0_r i); apply (X 0 v); reflexivity).
    destruct (Ob _ _ _ _ H1 Ev Dn (Some (p, i)) S (asked_part _ _ _ _ _ _ I N Rp Np X0)) as (D1 & Ev1 & O1 & T1).
    destruct (IH (Datatypes.S i) b ws c Ev1 (D1 ++ Dn)) as (D2 & Ev2 & ND2 & New2 & S2 & M2 & E2 & T2); auto.
    { intros j d J. rewrite Nat.add_succ_comm. apply (X (Datatypes.S j) d). exact J. }
    { apply (oc_state _ _ _ _ _ O1). }
    { apply in_or_app. right. exact I. }
    { eapply no_later; eassumption. }
    destruct O1 as [o1 n1 s1 m1 e1]. exists (D1 ++ D2), Ev2. split.
    { clear - o1 ND2 New2. induction o1 as [|x D NI ND IH]; [exact ND2|]. cbn. constructor.
      - intros J. apply in_app_or in J. destruct J as [J|J]; [contradiction|]. apply (New2 x J). left. reflexivity.
      - apply IH. intros q J K. apply (New2 q J). right. exact K. }
    split. { intros q J. apply in_app_or in J. destruct J as [J|J]; [auto|]. intros K. apply (New2 q J), in_or_app. right. exact K. }
    split. { destruct S2 as [a' b' c' d']. constructor; [exact a'| | |].
      - intros q J. apply b'. rewrite !in_app_iff in *. tauto.
      - intros q J. apply c'. rewrite !in_app_iff in *. tauto.
      - intros q j J. specialize (d' q j J). rewrite !in_app_iff in *. tauto. }
    split. { intros x J. apply M2, m1. right. exact J. }
    split. { intros x J. destruct (E2 x J) as [K|(q & j & -> & K)].
      - destruct (e1 x K) as [[<-|L]|(q & j & -> & L)]; [right; exists p, i; auto|auto|]. right. exists q, j. split; [reflexivity|]. right. apply in_or_app. auto.
      - right. exists q, j. split; [reflexivity|]. destruct K as [K|K]; [auto|right; apply in_or_app; auto]. }
    econstructor; eassumption.
Qed.
Lemma state_open al Ev Dn p : state al Ev Dn -> assq (Ptr p) al <> Some T -> (assq (Ptr p) base = Some F -> exists r, In r Ev /\ refers h root r (Ptr p)) -> state al Ev (p :: Dn).
Proof.
  intros [a b c d] M R. constructor; [exact a| | |].
  - intros q [<-|I]; auto.
  - intros q [<-|I]; auto.
  - intros q i I. right. eapply d. exact I.
Qed.
(** The parts of a pair *)
Lemma pair_once al p a d us b ws al' Ev Dn : nth_error h p = Some (Cons a d) -> obj_once al a us b -> cdr_once b d ws al' -> reach h root (Ptr p) ->
  state al Ev Dn -> ~ In p Dn -> assq (Ptr p) al <> Some T -> (assq (Ptr p) base = Some F -> exists r, In r Ev /\ refers h root r (Ptr p)) ->
  exists D1 D2 Ev', outcome Ev Dn al' (p :: D1 ++ D2) Ev' /\ tells h (scope_al al) us a (scope_al b) D1 /\ tells_rest h (scope_al b) ws d (scope_al al') D2.
Proof.
  intros Np Ob Cd Rp S N M R. pose proof (state_open _ _ _ _ S M R) as S0.
  assert (I : In p (p :: Dn)) by (left; reflexivity).
  assert (N0 : forall j, 0 <= j -> ~ In (Some (p, j)) Ev) by (intros j _ J; apply N; eapply st_ref; eassumption).
  destruct (Ob Ev (p :: Dn) (Some (p, 0)) S0 (asked_part _ _ _ _ _ a I N0 Rp Np eq_refl)) as (D1 & Ev1 & O1 & T1).
  destruct (Cd Ev1 (D1 ++ p :: Dn) (Some (p, 1)) (oc_state _ _ _ _ _ O1)) as (D2 & Ev2 & O2 & T2).
  { apply (asked_part _ _ _ _ (Cons a d)); auto; [apply in_or_app; right; exact I|]. eapply no_later; eassumption. }
  exists D1, D2, Ev2. split; [|split; assumption].
  destruct O1 as [o1 n1 s1 m1 e1], O2 as [o2 n2 s2 m2 e2]. constructor.
  - constructor.
    + intros J. apply in_app_or in J. destruct J as [J|J]; [apply (n1 p J), I|]. apply (n2 p J), in_or_app. right. exact I.
    + clear - o1 o2 n2. induction o1 as [|x D NI ND IH]; [exact o2|]. cbn. constructor.
      * intros J. apply in_app_or in J. destruct J as [J|J]; [contradiction|]. apply (n2 x J). left. reflexivity.
      * apply IH. intros q J K. apply (n2 q J). right. exact K.
  - intros q [<-|J]; [exact N|]. intros K. apply in_app_or in J. destruct J as [J|J]; [apply (n1 q J); right; exact K|].
    apply (n2 q J), in_or_app. right. right. exact K.
  - destruct s2 as [a' b' c' d']. constructor; [exact a'| | |].
    + intros q J. apply b'. cbn in J. rewrite !in_app_iff in *. cbn. tauto.
    + intros q J. apply c'. cbn in J. rewrite !in_app_iff in *. cbn. tauto.
    + intros q i J. specialize (d' q i J). cbn. rewrite !in_app_iff in *. cbn in d'. tauto.
  - intros x J. apply m2. right. apply m1. right. exact J.
  - intros x J. destruct (e2 x J) as [[<-|K]|(q & i & -> & K)].
    + right. exists p, 1. split; [reflexivity|left; reflexivity].
    + destruct (e1 x K) as [[<-|L]|(q & i & -> & L)]; [right; exists p, 0; split; [reflexivity|left; reflexivity]|auto|].
      right. exists q, i. split; [reflexivity|]. right. apply in_or_app. auto.
    + right. exists q, i. split; [reflexivity|]. right. apply in_or_app. auto.
Qed.
(** An object that is not marked has not been described before another reference to it is followed *)
Lemma not_before al Ev Dn r p : state al Ev Dn -> asked Ev Dn r (Ptr p) -> interesting h (Ptr p) = true -> assq (Ptr p) base = Some F -> ~ In p Dn.
Proof.
  intros S (R & N & _) Ip A I. destruct (st_from _ _ _ S p I A) as (s & J & K). assert (X : r <> s) by congruence.
  assert (Y : assq (Ptr p) base = Some T) by (apply Marks; [exact Ip|exists r, s; auto]). congruence.
Qed.
Lemma plain_tells : forall v E, valid h v -> interesting h v = false -> tells h E (plain h v) v E [].
Proof.
  intros v E V I. destruct v as [|b|p]; cbn [plain].
  - constructor.
  - constructor. constructor.
  - cbn in I. destruct (nth_error h p) as [[a d|vs|n| |n]|] eqn:En; try discriminate I.
    + destruct vs as [|w vs]; [|discriminate I]. apply (Tells_vector h E p [] [] E []); [exact En|constructor].
    + constructor. eapply Atomic_text. exact En.
    + constructor. eapply Atomic_other. exact En.
    + destruct (proj1 Sound p n En).
    + specialize (V p eq_refl). apply nth_error_None in En. lia.
Qed.
Lemma write_once : forall fuel al v ts al',
  (write_obj fuel Obj_part h al v = Done (ts, al') -> obj_once al v ts al') /\
  (write_obj fuel Interesting h al v = Done (ts, al') -> body_once al v ts al') /\
  (write_obj fuel Cdr_part h al v = Done (ts, al') -> cdr_once al v ts al').
Proof.
  induction fuel as [|fuel IH]; intros al v ts al'; [split; [|split]; discriminate|].
  assert (IHo : forall al v ts al', write_obj fuel Obj_part h al v = Done (ts, al') -> obj_once al v ts al') by (intros; apply IH; assumption).
  assert (IHb : forall al v ts al', write_obj fuel Interesting h al v = Done (ts, al') -> body_once al v ts al') by (intros; apply IH; assumption).
  assert (IHc : forall al v ts al', write_obj fuel Cdr_part h al v = Done (ts, al') -> cdr_once al v ts al') by (intros; apply IH; assumption).
  split; [|split]; cbn [write_obj]; intros H.
  - intros Ev Dn r S A. pose proof A as (R & Nr & Ro & Rv). pose proof (state_add _ _ _ r S Ro) as S'. destruct (interesting h v) eqn:Iv.
    2: { injection H as <- <-. exists [], (r :: Ev). split; [apply outcome_refl, S'|apply plain_tells; auto]. }
    destruct (st_inv _ _ _ S) as (m & Im). destruct v as [|b|p]; try discriminate Iv.
    destruct (assq (Ptr p) al) as [[| |n]|] eqn:Q; try discriminate.
    + pose proof (proj1 (inv_F _ _ _ Im _) Q) as QF.
      destruct (IHb _ _ _ _ H (r :: Ev) Dn S' Iv) as (D & Ev' & O & T & _); auto.
      { intros q [= <-]. split; [eapply not_before; [exact S|exact A|exact Iv|exact QF]|]. split; [rewrite Q; discriminate|]. intros _. exists r. split; [left; reflexivity|exact R]. }
      exists D, Ev'. auto.
    + destruct (inv_head _ _ _ Im) as (hk & rs & Eal). rewrite Eal in H. rewrite <- Eal in H.
      apply bind_done in H. destruct H as ((us & b) & H1 & H2). injection H2 as <- <-.
      assert (Np : ~ In p Dn) by (intros I; exact (st_mark _ _ _ S p I Q)).
      destruct (IHb _ _ _ _ H1 (r :: Ev) Dn) as (D & Ev' & O & T & NU); auto.
      { destruct S' as [a b' c d]. constructor; [exists (Datatypes.S m); constructor; assumption| |exact c|exact d].
        intros q I. rewrite assq_other; [apply b', I|]. intros [= ->]. contradiction. }
      { intros q [= <-]. split; [exact Np|]. rewrite assq_here. split; [discriminate|]. intros _. exists r. split; [left; reflexivity|exact R]. }
      exists D, Ev'. split; [exact O|]. cbn [scope_al] in T. apply Tells_decl; auto.
      intros q X. apply (inv_bound _ Plain _ _ Im) in X. lia.
    + injection H as <- <-. exists [], (r :: Ev). split; [apply outcome_refl, S'|]. constructor. eapply inv_stands; eassumption.
  - intros Ev Dn S Iv Pv Rv. destruct v as [|b|p]; try discriminate. destruct (Pv p eq_refl) as (Np & Mp & Fp).
    destruct (nth_error h p) as [[a d|vs|n| |n]|] eqn:E; try discriminate.
    + apply bind_done in H. destruct H as ((us & b) & H1 & H2). apply bind_done in H2. destruct H2 as ((ws & c) & H2 & H3). injection H3 as <- <-.
      destruct (pair_once al p a d us b ws c Ev Dn E (IHo _ _ _ _ H1) (IHc _ _ _ _ H2) Rv S Np Mp Fp) as (D1 & D2 & Ev' & O & T1 & T2).
      exists (p :: D1 ++ D2), Ev'. split; [exact O|]. split; [econstructor; eassumption|discriminate].
    + apply bind_done in H. destruct H as ((us & b) & H1 & H2). injection H2 as <- <-.
      destruct vs as [|w vs]; [cbn in Iv; rewrite E in Iv; discriminate|].
      destruct (each_once (write_obj fuel Obj_part h) p (Vector (w :: vs)) IHo E Rv (w :: vs) 0 al us b Ev (p :: Dn)) as (D & Ev' & ND & New & S2 & M2 & E2 & T2); auto.
      { apply state_open; assumption. } { left. reflexivity. } { intros j _ J. apply Np. eapply st_ref; eassumption. }
      exists (p :: D), Ev'. split.
      * constructor.
        -- constructor; [|exact ND]. intros I. apply (New p I). left. reflexivity.
        -- intros q [<-|I]; [exact Np|]. intros J. apply (New q I). right. exact J.
        -- destruct S2 as [a' b' c' d']. constructor; [exact a'| | |].
           ++ intros q J. apply b'. cbn in J. rewrite !in_app_iff in *. cbn. tauto.
           ++ intros q J. apply c'. cbn in J. rewrite !in_app_iff in *. cbn. tauto.
           ++ intros q i J. specialize (d' q i J). cbn. rewrite !in_app_iff in *. cbn in d'. tauto.
        -- exact M2.
        -- intros x I. destruct (E2 x I) as [J|(q & i & -> & J)]; [auto|]. right. exists q, i. split; [reflexivity|]. destruct J as [-> | J]; [left; reflexivity|right; exact J].
      * split; [|discriminate]. apply (Tells_vector h (scope_al al) p (w :: vs) us (scope_al b) D E T2).
    + injection H as <- <-. exists [], Ev. split; [apply outcome_refl, S|]. split; [constructor; eapply Atomic_text; exact E|discriminate].
    + cbn in Iv. rewrite E in Iv. discriminate.
    + cbn in Iv. rewrite E in Iv. discriminate.
  - assert (Dot : ('(ts, al) <- write_obj fuel Obj_part h al v; Done (TDot :: ts ++ [TClose], al)) = Done (ts, al') -> cdr_once al v ts al').
    { intros K. apply bind_done in K. destruct K as ((us & b) & H1 & H2). injection H2 as <- <-. intros Ev Dn r S A.
      destruct (IHo _ _ _ _ H1 Ev Dn r S A) as (D & Ev' & O & T). exists D, Ev'. split; [exact O|constructor; exact T]. }
    destruct v as [|b|p].
    + injection H as <- <-. intros Ev Dn r S (_ & _ & Ro & _). exists [], (r :: Ev). split; [apply outcome_refl, state_add; assumption|constructor].
    + injection H as <- <-. intros Ev Dn r S (_ & _ & Ro & _). exists [], (r :: Ev). split; [apply outcome_refl, state_add; assumption|].
      apply (TRest_dot h (scope_al al) [TAtom (Imm b)]). constructor. constructor.
    + destruct (nth_error h p) as [[a d|vs|n| |n]|] eqn:E; auto.
      destruct (assq (Ptr p) al) as [[| |n]|] eqn:Q; auto; try discriminate.
      apply bind_done in H. destruct H as ((us & b) & H1 & H2). apply bind_done in H2. destruct H2 as ((ws & c) & H2 & H3). injection H3 as <- <-.
      intros Ev Dn r S A. pose proof A as (R & Nr & Ro & Rv). destruct (st_inv _ _ _ S) as (m & Im). pose proof (proj1 (inv_F _ _ _ Im _) Q) as QF.
      destruct (pair_once al p a d us b ws c (r :: Ev) Dn E (IHo _ _ _ _ H1) (IHc _ _ _ _ H2) Rv (state_add _ _ _ _ S Ro)) as (D1 & D2 & Ev' & O & T1 & T2).
      { eapply not_before; [exact S|exact A| |exact QF]. cbn. rewrite E. reflexivity. } { congruence. } { intros _. exists r. split; [left; reflexivity|exact R]. }
      exists (p :: D1 ++ D2), Ev'. split; [exact O|econstructor; eassumption].
Qed.
End Once.
Theorem write_shared_once : forall h v, sound h -> valid h v ->
  exists ts f, (forall fuel, f <= fuel -> write_shared fuel h v = Done ts) /\ exists E D, tells h [] ts v E D /\ NoDup D.
Proof.
  intros h v S V. assert (U0 : unnumbered []) by (intros w n; discriminate).
  destruct (scan_ends (Datatypes.S (unseen h [])) h [] v U0 ltac:(lia)) as (base & Hs & _).
  destruct (scan_spec _ _ _ _ _ U0 Hs) as ((U & G & E) & M).
  pose proof (scan_scope _ _ _ _ _ Hs eq_refl) as P.
  assert (Ed : forall o c, assq o base <> None -> child h o c -> edge h base o c) by (intros; apply E; auto).
  destruct (all_ok h base S U Ed P (pending h ((None, N 0) :: base)) v) as (O & _).
  { split; [exact V|]. intros I. apply (M I). }
  destruct (O 0 _ (Inv_0 base) (le_n _)) as (ts & m & al & (f & D) & Iv & _ & Sh).
  exists ts, (Datatypes.S (unseen h []) + f). split.
  - intros fuel L. unfold write_shared. rewrite (scan_more _ _ _ _ _ Hs fuel ltac:(lia)). cbn [rbind].
    rewrite (D fuel ltac:(lia)). reflexivity.
  - assert (Vr : forall w, reach h v w -> valid h w).
    { intros w R. destruct R as [|w x R Ch]; [exact V|]. eapply (proj2 S). exact Ch. }
    destruct (proj1 (write_once h v base U P (scan_marks _ _ _ _ Hs) S Vr f _ v ts al) (D f (le_n _)) [] [] None) as (L & Ev & O' & T').
    + constructor; [exists 0; constructor| | |]; intros; contradiction.
    + split; [reflexivity|]. split; [intros []|]. split; [discriminate|constructor].
    + exists (scope_al al), L. cbn [scope_al] in T'. rewrite P in T'. split; [exact T'|apply O'].
Qed.
Theorem write_read_isomorphic : forall h v rest, sound h -> valid h v ->
  exists ts v' h' f0, (forall fuel, f0 <= fuel -> write_shared fuel h v = Done ts /\ read_shared fuel h (ts ++ rest) = Done (Object v', h', rest)) /\
    (forall q, q < length h -> nth_error h' q = nth_error h q) /\ isomorphic h v h' v'.
Proof.
  intros h v rest S V. destruct (write_shared_once h v S V) as (ts & f & W & E & D & T & ND). pose proof (write_shared_grounded _ _ _ _ (W f (Nat.le_refl _))) as G.
  pose proof (tells_shows _ _ _ _ _ _ T) as Sh.
  destruct (read_shared_tells h ts v h rest (ex_intro _ E Sh) G (proj1 (shows_atoms h) _ _ _ _ Sh) (proj1 S)) as (v' & h' & f' & R & K & E' & D' & T' & ND').
  exists ts, v', h', (Nat.max f f'). split; [intros fuel L; split; [apply W; lia|apply R; lia]|]. split; [exact K|].
  eapply told_same; eassumption.
Qed.
Theorem read_unshared : forall h0 ts v0 h rest, depicts h0 ts v0 -> grounded [] ts ->
  (forall v, In (TAtom v) ts -> atomic h v) -> (forall p n, nth_error h p <> Some (Label n)) ->
  exists v h' f0, (forall fuel, f0 <= fuel -> read_shared fuel h (ts ++ rest) = Done (Object v, h', rest)) /\
    forall h1 v1, depicts h1 ts v1 -> maps_to h' v h1 v1.
Proof.
  intros h0 ts v0 h rest P G A NL. destruct (read_shared_tells h0 ts v0 h rest P G A NL) as (v & h' & f & R & K & E & D & T & ND).
  exists v, h', f. split; [exact R|]. intros h1 v1 P1. eapply told_unshared; eassumption.
Qed.
