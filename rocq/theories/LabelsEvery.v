(** write-shared gives a label to every part that is referred to twice.  The converse, that
    only such parts get one, is in LabelsShared.v. *)
From Coq Require Import List Arith Lia.
From Verif Require Import Lists ListPredicates Labels LabelsSpec LabelsProofs LabelsShared.
Import ListNotations.

(** ** scan marks what it meets twice *)
Section Scan.
Variable h : store.
Variable root : val.
Lemma refers_same : forall r v w, refers h root r v -> refers h root r w -> v = w.
Proof.
  intros [(p & i)|] v w; cbn; [|congruence]. intros (_ & o & E & X) (_ & o' & E' & X'). congruence.
Qed.
(** The references followed so far, and their marks *)
Definition cinv (al : alist) (Ev : list event) : Prop :=
  (forall r w, In r Ev -> refers h root r w -> interesting h w = true -> assq w al <> None) /\
  (forall r s w, In r Ev -> In s Ev -> r <> s -> refers h root r w -> refers h root s w -> interesting h w = true -> assq w al = Some T).
(** All the parts of the objects met in between have been followed *)
Definition complete (al al' : alist) (Ev : list event) : Prop :=
  forall p i c, assq (Ptr p) al = None -> assq (Ptr p) al' <> None -> refers h root (Some (p, i)) c -> In (Some (p, i)) Ev.
Definition covered (f : alist -> val -> res alist) : Prop := forall al Ev v r al', unnumbered al -> cinv al Ev -> refers h root r v ->
  reach h root v -> f al v = Done al' -> exists Ev', cinv al' Ev' /\ In r Ev' /\ incl Ev Ev' /\ complete al al' Ev'.
Lemma child_refers : forall p i c, refers h root (Some (p, i)) c -> child h (Ptr p) c.
Proof.
  intros p i c (_ & o & Eo & Ei). destruct o as [a d|vs|n| |n]; cbn in Ei; try (destruct i; discriminate).
  - destruct i as [|[|i]]; cbn in Ei; [injection Ei as <-; eapply Child_car; exact Eo | injection Ei as <-; eapply Child_cdr; exact Eo |].
    destruct i; discriminate.
  - eapply Child_item; [exact Eo|]. eapply nth_error_In. exact Ei.
Qed.
Lemma children_covered : forall f p, covered f -> (forall al v al', unnumbered al -> f al v = Done al' -> scanned h al al') ->
  reach h root (Ptr p) ->
  forall cs al Ev al', unnumbered al -> cinv al Ev -> (forall i c, In (i, c) cs -> refers h root (Some (p, i)) c) ->
  scans f al (map snd cs) = Done al' ->
  exists Ev', cinv al' Ev' /\ (forall i c, In (i, c) cs -> In (Some (p, i)) Ev') /\ incl Ev Ev' /\ complete al al' Ev'.
Proof.
  intros f p CF SF Rp. induction cs as [|(i & c) cs IH]; intros al Ev al' U I R H.
  - injection H as <-. exists Ev. split; [exact I|]. split; [intros i c []|]. split; [apply incl_refl|]. intros q i c N N'. contradiction.
  - cbn [map snd scans] in H. apply bind_done in H. destruct H as (b & H1 & H2). pose proof (R i c (or_introl eq_refl)) as Rc.
    destruct (SF _ _ _ U H1) as (Ub & Gb & _).
    assert (Rv : reach h root c) by (eapply Reach_step; [exact Rp|eapply child_refers; exact Rc]).
    destruct (CF al Ev c (Some (p, i)) b U I Rc Rv H1) as (Ev1 & I1 & J1 & L1 & C1).
    destruct (IH b Ev1 al' Ub I1) as (Ev2 & I2 & J2 & L2 & C2); auto.
    { intros j d J. apply R. right. exact J. }
    exists Ev2. split; [exact I2|]. split; [|split].
    + intros j d [[= <- <-]|J]; [apply L2, J1|eapply J2; exact J].
    + eapply incl_tran; eassumption.
    + intros q j d N N' Rq. destruct (assq (Ptr q) b) eqn:Eb.
      * apply L2. eapply C1; [exact N|congruence|exact Rq].
      * eapply C2; eassumption.
Qed.
Lemma scan_covered : forall fuel, covered (scan fuel h).
Proof.
  induction fuel as [|fuel IH]; intros al Ev v r al' U I R Rv H; [discriminate|]. cbn [scan] in H.
  destruct (interesting h v) eqn:Iv.
  2: { injection H as <-. exists (r :: Ev). split; [|split; [left; reflexivity|split; [apply incl_tl, incl_refl|]]].
       - destruct I as (I1 & I2). split.
         + intros s w [<-|J] Rs Iw; [|eapply I1; eassumption]. rewrite (refers_same _ _ _ R Rs) in Iv. congruence.
         + intros s t w [<-|J] [<-|K] Nst Rs Rt Iw; try congruence.
           * rewrite (refers_same _ _ _ R Rs) in Iv. congruence.
           * rewrite (refers_same _ _ _ R Rt) in Iv. congruence.
           * apply (I2 s t w); assumption.
       - intros q i c N N'. contradiction. }
  destruct (assq v al) as [[| |n]|] eqn:E.
  - injection H as <-. exists (r :: Ev). split; [|split; [left; reflexivity|split; [apply incl_tl, incl_refl|]]].
    + destruct I as (I1 & I2). split.
      * intros s w [<-|J] Rs Iw.
        -- rewrite <- (refers_same _ _ _ R Rs), assq_here. discriminate.
        -- rewrite assq_cons. destruct (veq w v); [discriminate|]. eapply I1; eassumption.
      * intros s t w Js Jt Nst Rs Rt Iw. rewrite assq_cons. destruct (veq w v) eqn:Ew; [reflexivity|].
        assert (X : forall x, refers h root x w -> x <> r).
        { intros x Rx ->. rewrite (refers_same _ _ _ R Rx) in Ew. rewrite (proj2 (veq_iff w w) eq_refl) in Ew. discriminate. }
        destruct Js as [<-|Js]; [destruct (X r Rs eq_refl)|]. destruct Jt as [<-|Jt]; [destruct (X r Rt eq_refl)|]. apply (I2 s t w); assumption.
    + intros q i c N N'. exfalso. rewrite assq_cons in N'. destruct (veq (Ptr q) v) eqn:Ew; [|contradiction].
      apply veq_iff in Ew. subst v. congruence.
  - injection H as <-. exists (r :: Ev). split; [|split; [left; reflexivity|split; [apply incl_tl, incl_refl|]]].
    + destruct I as (I1 & I2). split.
      * intros s w [<-|J] Rs Iw; [|eapply I1; eassumption]. rewrite <- (refers_same _ _ _ R Rs). congruence.
      * intros s t w [<-|J] [<-|K] Nst Rs Rt Iw; try congruence.
        -- rewrite <- (refers_same _ _ _ R Rs). exact E.
        -- rewrite <- (refers_same _ _ _ R Rt). exact E.
        -- apply (I2 s t w); assumption.
    + intros q i c N N'. contradiction.
  - destruct (U _ _ E).
  - destruct v as [|b|p]; try discriminate Iv.
    assert (U0 : unnumbered ((Some (Ptr p), F) :: al)) by (apply unnumbered_add; [exact U|discriminate]).
    assert (I0 : cinv ((Some (Ptr p), F) :: al) (r :: Ev)).
    { destruct I as (I1 & I2). split.
      - intros s w [<-|J] Rs Iw.
        + rewrite <- (refers_same _ _ _ R Rs), assq_here. discriminate.
        + rewrite assq_cons. destruct (veq w (Ptr p)); [discriminate|]. eapply I1; eassumption.
      - intros s t w Js Jt Nst Rs Rt Iw.
        assert (X : forall x y, In y Ev -> refers h root x w -> refers h root y w -> x <> r).
        { intros x y Jy Rx Ry ->. rewrite <- (refers_same _ _ _ R Rx) in Ry, Iw. apply (I1 y _ Jy Ry Iw), E. }
        destruct Js as [<-|Js], Jt as [<-|Jt]; try congruence.
        + destruct (X r t Jt Rs Rt eq_refl).
        + destruct (X r s Js Rt Rs eq_refl).
        + pose proof (I2 s t w Js Jt Nst Rs Rt Iw) as K. rewrite assq_cons. destruct (veq w (Ptr p)) eqn:Ew; [|exact K].
          apply veq_iff in Ew. subst w. congruence. }
    assert (Fin : forall cs, (forall i c, In (i, c) cs <-> refers h root (Some (p, i)) c) ->
      scans (scan fuel h) ((Some (Ptr p), F) :: al) (map snd cs) = Done al' ->
      exists Ev', cinv al' Ev' /\ In r Ev' /\ incl Ev Ev' /\ complete al al' Ev').
    { intros cs Rc K. destruct (children_covered (scan fuel h) p IH) with (cs := cs) (al := (Some (Ptr p), F) :: al) (Ev := r :: Ev) (al' := al') as (Ev' & J & X & L & C); auto.
      - intros a w a' Ua Ha. eapply scan_spec; eassumption.
      - intros i c Ic. apply Rc, Ic.
      - exists Ev'. split; [exact J|]. split; [apply L; left; reflexivity|]. split; [eapply incl_tran; [|exact L]; apply incl_tl, incl_refl|].
        intros q i c N N' Rq. destruct (veq (Ptr q) (Ptr p)) eqn:Eq.
        + apply veq_iff in Eq. injection Eq as ->. eapply X. apply Rc. exact Rq.
        + eapply C; [|exact N'|exact Rq]. rewrite assq_cons, Eq. exact N. }
    destruct (nth_error h p) as [[a d|vs|k| |k]|] eqn:En.
    + apply (Fin [(1, d); (0, a)]).
      * intros i c. split.
        -- intros [[= <- <-]|[[= <- <-]|[]]]; (split; [exact Rv|]); exists (Cons a d); auto.
        -- intros (_ & o & Eo & Ei). rewrite En in Eo. injection Eo as <-. cbn in Ei. destruct i as [|[|i]]; cbn in Ei.
           ++ injection Ei as <-. right. left. reflexivity.
           ++ injection Ei as <-. left. reflexivity.
           ++ destruct i; discriminate.
      * cbn [map snd scans]. apply bind_done in H. destruct H as (b & H1 & H2). rewrite H1. cbn [rbind]. rewrite H2. reflexivity.
    + apply (Fin (combine (seq 0 (length vs)) vs)).
      * intros i c. split.
        -- intros J. apply index_in in J. destruct J as (j & -> & Ej). split; [exact Rv|]. exists (Vector vs). auto.
        -- intros (_ & o & Eo & Ei). rewrite En in Eo. injection Eo as <-. cbn [parts] in Ei.
           assert (G : forall (l : list val) k j x, nth_error l j = Some x -> In (k + j, x) (combine (seq k (length l)) l)).
           { clear. induction l as [|y l IHl]; intros k [|j] x Hj; try discriminate; cbn in *.
             - injection Hj as <-. left. f_equal. lia.
             - right. replace (k + Datatypes.S j) with (Datatypes.S k + j) by lia. apply IHl, Hj. }
           apply (G vs 0 i c Ei).
      * rewrite combine_snd. exact H.
    + apply (Fin []); [|injection H as <-; reflexivity]. intros i c. split; [intros []|]. intros X. apply child_refers in X. eapply leaf_child; [|exact X]. eapply Leaf_text. exact En.
    + cbn in Iv. rewrite En in Iv. discriminate.
    + cbn in Iv. rewrite En in Iv. discriminate.
    + cbn in Iv. rewrite En in Iv. discriminate.
Qed.
End Scan.
Lemma child_interesting : forall h v c, child h v c -> interesting h v = true.
Proof.
  intros h v c Ch. destruct Ch as [p a d E|p a d E|p vs w E J]; cbn; rewrite E; auto. destruct vs; [destruct J|reflexivity].
Qed.
Lemma base_reach : forall h v base, assq v base <> None \/ interesting h v = false ->
  (forall o c, assq o base <> None -> child h o c -> edge h base o c) ->
  forall w, reach h v w -> interesting h w = true -> assq w base <> None.
Proof.
  intros h v base B Ed w Rw. induction Rw as [|w x Rw IH Ch]; intros Iw.
  - destruct B; congruence.
  - pose proof (child_interesting _ _ _ Ch) as Io. destruct (Ed w x (IH Io) Ch Iw) as [H|(H & _)]; congruence.
Qed.
Lemma scan_marks : forall fuel h v al, scan fuel h [] v = Done al -> forall w, interesting h w = true -> shared h v w -> assq w al = Some T.
Proof.
  intros fuel h v al H w Iw (r & s & Nrs & Rr & Rs).
  assert (U0 : unnumbered []) by (intros x n; discriminate).
  destruct (scan_spec _ _ _ _ _ U0 H) as ((U & G & E) & M).
  destruct (scan_covered h v fuel [] [] v None al U0) as (Ev & (_ & I2) & J & _ & C); auto.
  - split; intros; contradiction.
  - reflexivity.
  - constructor.
  - assert (X : forall x, refers h v x w -> In x Ev).
    { intros [(p & i)|] Rx; [|exact J]. eapply C; [reflexivity| |exact Rx].
      apply (base_reach h v al).
      - destruct (interesting h v) eqn:Iv; [left; apply (M Iv)|right; reflexivity].
      - intros o c So Ch. apply E; auto.
      - apply Rx.
      - eapply child_interesting. eapply child_refers. exact Rx. }
    apply (I2 r s w); auto.
Qed.

(** ** The writer numbers all the parts marked *)
Section Write.
Variable h : store.
Definition numbered (al : alist) (w : val) : Prop := exists n, assq w al = Some (N n).
(** From al to al', having written the objects D *)
Definition wrote (al al' : alist) (D : list val) : Prop :=
  (forall w n, assq w al = Some (N n) -> assq w al' = Some (N n)) /\
  (forall w, assq w al' = Some F <-> assq w al = Some F) /\
  (forall w, In w D -> assq w al' = Some F \/ numbered al' w) /\
  (forall w c, In w D -> child h w c -> interesting h c = true -> In c D \/ numbered al c) /\
  (forall w, numbered al' w -> In w D \/ numbered al w).
Definition written (al : alist) (D : list val) (v : val) : Prop := interesting h v = true -> In v D \/ numbered al v.
Lemma wrote_nil : forall al, wrote al al [].
Proof. intros al. repeat split; auto; intros; try contradiction. Qed.
Lemma wrote_app : forall a b c D1 D2, wrote a b D1 -> wrote b c D2 -> wrote a c (D1 ++ D2).
Proof.
  intros a b c D1 D2 (N1 & F1 & M1 & C1 & X1) (N2 & F2 & M2 & C2 & X2).
  assert (Y : forall w, numbered b w -> In w (D1 ++ D2) \/ numbered a w).
  { intros w K. destruct (X1 w K); [left; apply in_or_app|]; auto. }
  split; [auto|]. split; [|split; [|split]].
  - intros w. rewrite F2. apply F1.
  - intros w I. apply in_app_or in I. destruct I as [I|I]; [|auto]. destruct (M1 w I) as [K|(n & K)]; [left; apply F2, K|right; exists n; apply N2, K].
  - intros w x I Ch Ix. apply in_app_or in I. destruct I as [I|I].
    + destruct (C1 w x I Ch Ix); [left; apply in_or_app|]; auto.
    + destruct (C2 w x I Ch Ix) as [K|K]; [left; apply in_or_app; auto|apply Y, K].
  - intros w K. destruct (X2 w K) as [J|J]; [left; apply in_or_app; auto|apply Y, J].
Qed.
Lemma written_app : forall a b D1 D2 v, wrote a b D1 -> written b D2 v -> written a (D1 ++ D2) v.
Proof.
  intros a b D1 D2 v (_ & _ & _ & _ & X) H I. destruct (H I) as [K|K]; [left; apply in_or_app; auto|].
  destruct (X v K); [left; apply in_or_app|]; auto.
Qed.
Lemma written_more : forall a D1 D2 v, written a D1 v -> written a (D1 ++ D2) v.
Proof. intros a D1 D2 v H I. destruct (H I); [left; apply in_or_app|]; auto. Qed.
(** Adding the object itself when all its parts have been written *)
Lemma wrote_cons : forall a b D v, wrote a b D -> (assq v a = Some F \/ numbered a v) -> (forall c, child h v c -> written a D c) -> wrote a b (v :: D).
Proof.
  intros a b D v (N1 & F1 & M1 & C1 & X1) V K. split; [exact N1|]. split; [exact F1|]. split; [|split].
  - intros w [<-|I]; [|auto]. destruct V as [V|(n & V)]; [left; apply F1, V|right; exists n; apply N1, V].
  - intros w c [<-|I] Ch Ic; [destruct (K c Ch Ic)|destruct (C1 w c I Ch Ic)]; auto; left; right; assumption.
  - intros w J. destruct (X1 w J); auto. left. right. assumption.
Qed.
Definition goal (k : part) (al : alist) (v : val) (al' : alist) : Prop := exists D, wrote al al' D /\
  match k with Interesting => In v D | _ => written al D v end.
Definition fits (k : part) (al : alist) (v : val) : Prop :=
  match k with Interesting => assq v al = Some F \/ numbered al v | _ => True end.
Definition obj_goal (f : alist -> val -> res (list token * alist)) : Prop := forall al v ts al',
  f al v = Done (ts, al') -> goal Obj_part al v al'.
Lemma each_goal : forall f, obj_goal f -> forall vs al ts al', each_obj f al vs = Done (ts, al') ->
  exists D, wrote al al' D /\ forall v, In v vs -> written al D v.
Proof.
  intros f G. induction vs as [|v vs IH]; intros al ts al' H; cbn [each_obj] in H.
  - injection H as <- <-. exists []. split; [apply wrote_nil|]. intros v [].
  - apply bind_done in H. destruct H as ((us & b) & H1 & H2). apply bind_done in H2. destruct H2 as ((ws & c) & H2 & H3).
    injection H3 as <- <-. destruct (G _ _ _ _ H1) as (D1 & W1 & V1). destruct (IH _ _ _ H2) as (D2 & W2 & V2).
    exists (D1 ++ D2). split; [eapply wrote_app; eassumption|]. intros w [<-|I]; [apply written_more, V1|eapply written_app; eauto].
Qed.
Lemma write_goal : forall fuel k al v ts al', fits k al v -> write_obj fuel k h al v = Done (ts, al') -> goal k al v al'.
Proof.
  induction fuel as [|fuel IH]; intros k al v ts al' Ft H; [discriminate|].
  assert (Pair : forall p a d b us1 us2, nth_error h p = Some (Cons a d) -> assq (Ptr p) al = Some F \/ numbered al (Ptr p) ->
    write_obj fuel Obj_part h al a = Done (us1, b) -> write_obj fuel Cdr_part h b d = Done (us2, al') -> exists D, wrote al al' (Ptr p :: D)).
  { intros p a d b us1 us2 E V H1 H2. destruct (IH Obj_part _ _ _ _ Logic.I H1) as (D1 & W1 & V1). destruct (IH Cdr_part _ _ _ _ Logic.I H2) as (D2 & W2 & V2).
    exists (D1 ++ D2). apply wrote_cons; [eapply wrote_app; eassumption|exact V|]. intros c Ch.
    destruct (child_pair h p a d c E Ch) as [-> | ->]; [apply written_more, V1|eapply written_app; eassumption]. }
  cbn [write_obj] in H. destruct k.
  - destruct (interesting h v) eqn:Iv.
    2: { injection H as <- <-. exists []. split; [apply wrote_nil|]. intros I. congruence. }
    destruct (assq v al) as [[| |n]|] eqn:A; try discriminate.
    + destruct (IH Interesting _ _ _ _ (or_introl A) H) as (D & W & J). exists D. split; [exact W|]. intros _. left. exact J.
    + destruct al as [|(k & [| |m]) al0] eqn:Eal; try discriminate. rewrite <- Eal in *. clear Eal k al0.
      apply bind_done in H. destruct H as ((us & b) & H1 & H2). injection H2 as <- <-.
      assert (V0 : numbered ((Some v, N (S m)) :: al) v) by (exists (S m); apply assq_here).
      destruct (IH Interesting _ _ _ _ (or_intror V0) H1) as (D & (N1 & F1 & M1 & C1 & X1) & J). exists D. split; [|intros _; left; exact J].
      assert (Y : forall w, numbered ((Some v, N (S m)) :: al) w -> In w D \/ numbered al w).
      { intros w (n & K). rewrite assq_cons in K. destruct (veq w v) eqn:E; [|right; exists n; exact K]. apply veq_iff in E. subst w. left. exact J. }
      split; [|split; [|split; [exact M1|split]]].
      * intros w n K. apply N1. rewrite assq_other; [exact K|congruence].
      * intros w. rewrite F1. rewrite assq_cons. destruct (veq w v) eqn:E; [|reflexivity]. apply veq_iff in E. subst w. rewrite A. split; discriminate.
      * intros w c I Ch Ic. destruct (C1 w c I Ch Ic); auto.
      * intros w K. destruct (X1 w K); auto.
    + injection H as <- <-. exists []. split; [apply wrote_nil|]. intros _. right. exists n. exact A.
  - destruct v as [|b|p]; try discriminate. destruct (nth_error h p) as [[a d|vs|n| |n]|] eqn:E; try discriminate.
    + apply bind_done in H. destruct H as ((us & b) & H1 & H2). apply bind_done in H2. destruct H2 as ((ws & c) & H2 & H3).
      injection H3 as <- <-. destruct (Pair p a d b us ws E Ft H1 H2) as (D & W). exists (Ptr p :: D). split; [exact W|left; reflexivity].
    + apply bind_done in H. destruct H as ((us & b) & H1 & H2). injection H2 as <- <-.
      destruct (each_goal (write_obj fuel Obj_part h)) with (vs := vs) (al := al) (ts := us) (al' := b) as (D & W & V); auto.
      { intros x y z t. apply IH. exact Logic.I. }
      exists (Ptr p :: D). split; [|left; reflexivity]. apply wrote_cons; auto. intros c Ch. apply V. eapply child_vec; eassumption.
    + injection H as <- <-. exists [Ptr p]. split; [|left; reflexivity]. apply wrote_cons; auto; [apply wrote_nil|].
      intros c Ch. exfalso. eapply leaf_child; [|exact Ch]. eapply Leaf_text. exact E.
    + injection H as <- <-. exists [Ptr p]. split; [|left; reflexivity]. apply wrote_cons; auto; [apply wrote_nil|].
      intros c Ch. apply child_interesting in Ch. cbn in Ch. rewrite E in Ch. discriminate.
    + injection H as <- <-. exists [Ptr p]. split; [|left; reflexivity]. apply wrote_cons; auto; [apply wrote_nil|].
      intros c Ch. apply child_interesting in Ch. cbn in Ch. rewrite E in Ch. discriminate.
  - assert (Dot : ('(ts, al) <- write_obj fuel Obj_part h al v; Done (TDot :: ts ++ [TClose], al)) = Done (ts, al') -> goal Cdr_part al v al').
    { intros K. apply bind_done in K. destruct K as ((us & b) & H1 & H2). injection H2 as <- <-. exact (IH Obj_part _ _ _ _ Logic.I H1). }
    destruct v as [|b|p].
    + injection H as <- <-. exists []. split; [apply wrote_nil|]. intros I. discriminate.
    + injection H as <- <-. exists []. split; [apply wrote_nil|]. intros I. discriminate.
    + destruct (nth_error h p) as [[a d|vs|n| |n]|] eqn:E; auto.
      destruct (assq (Ptr p) al) as [[| |n]|] eqn:A; auto; try discriminate.
      apply bind_done in H. destruct H as ((us & b) & H1 & H2). apply bind_done in H2. destruct H2 as ((ws & c) & H2 & H3).
      injection H3 as <- <-. destruct (Pair p a d b us ws E (or_introl A) H1 H2) as (D & W). exists (Ptr p :: D). split; [exact W|]. intros _. left. left. reflexivity.
Qed.
End Write.
Lemma numbered_scope : forall al p n, assq (Ptr p) al = Some (N n) -> In (n, p) (scope_al al).
Proof.
  induction al as [|(k & m) al IH]; intros p n H; [discriminate|]. destruct k as [w|].
  - rewrite assq_cons in H. destruct (veq (Ptr p) w) eqn:E.
    + apply veq_iff in E. subst w. injection H as ->. left. reflexivity.
    + specialize (IH _ _ H). destruct w as [|b|q]; try exact IH. destruct m; try exact IH. right. exact IH.
  - cbn in *. apply IH, H.
Qed.
Theorem write_shared_every : forall h v, sound h -> valid h v ->
  exists ts f, (forall fuel, f <= fuel -> write_shared fuel h v = Done ts) /\
  exists E, shows h [] ts v E /\ (forall n p, In (n, p) E -> shared h v (Ptr p)) /\
    forall p, interesting h (Ptr p) = true -> shared h v (Ptr p) -> exists n, In (n, p) E.
Proof.
  intros h v S V. assert (U0 : unnumbered []) by (intros w n; discriminate).
  destruct (scan_ends (Datatypes.S (unseen h [])) h [] v U0 ltac:(lia)) as (base & Hs & _).
  destruct (scan_spec _ _ _ _ _ U0 Hs) as ((U & G & E) & M).
  pose proof (scan_scope _ _ _ _ _ Hs eq_refl) as P.
  assert (Ed : forall o c, assq o base <> None -> child h o c -> edge h base o c) by (intros; apply E; auto).
  destruct (all_ok h base S U Ed P (pending h ((None, N 0) :: base)) v) as (O & _).
  { split; [exact V|]. intros I. apply (M I). }
  destruct (O 0 _ (Inv_0 base) (le_n _)) as (ts & m & al & (f & D) & Iv & _ & Sh).
  exists ts, (Datatypes.S (unseen h []) + f). split.
  - intros fuel L. unfold write_shared. rewrite (scan_more _ _ _ _ _ Hs fuel ltac:(lia)). cbn [rbind].
    rewrite (D fuel ltac:(lia)). reflexivity.
  - exists (scope_al al). cbn [scope_al] in Sh. rewrite P in Sh. split; [exact Sh|]. split.
    + intros n p J. eapply scan_shared; [exact Hs|]. eapply inv_numbered; eassumption.
    + intros p Ip Sp. destruct (write_goal h f Obj_part _ _ _ _ Logic.I (D f (le_n _))) as (L & (_ & F1 & M1 & C1 & _) & W).
      pose proof (scan_marks _ _ _ _ Hs _ Ip Sp) as Tp.
      assert (X : forall w, numbered ((None, N 0) :: base) w -> False) by (intros w (n & K); cbn in K; exact (U _ _ K)).
      assert (Y : forall w, reach h v w -> interesting h w = true -> In w L).
      { intros w R. induction R as [|w x R IH Ch]; intros I.
        - destruct (W I) as [K|K]; [exact K|destruct (X _ K)].
        - destruct (C1 w x (IH (child_interesting _ _ _ Ch)) Ch I) as [K|K]; [exact K|destruct (X _ K)]. }
      assert (R : reach h v (Ptr p)).
      { destruct Sp as (r & _ & _ & Rr & _). destruct r as [(o & i)|]; [|cbn in Rr; rewrite Rr; constructor].
        eapply Reach_step; [apply Rr|eapply child_refers; exact Rr]. }
      destruct (M1 _ (Y _ R Ip)) as [K|(n & K)].
      * apply F1 in K. cbn in K. congruence.
      * exists n. apply numbered_scope, K.
Qed.
