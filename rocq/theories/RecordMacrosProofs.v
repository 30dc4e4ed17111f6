(** Proofs about define-record-type. *)
From Coq Require Import String List Bool Arith Lia.
From Verif Require Import SyntaxRules SyntaxRulesSpec Macros MacrosSpec MacrosProofs MacrosEval RecordMacros.
From Verif Require Records.
Import ListNotations.
Local Open Scope nat_scope.
Local Arguments sym : simpl never.
Local Arguments alias : simpl never.
Local Arguments ren : simpl never.

Definition define_record_field_rules := Eval vm_compute in rules_of define_record_field_text.
Definition define_record_type_rules := Eval vm_compute in rules_of define_record_type_text.
Definition by_define_record_field := by_rules define_record_field_text define_record_field_rules
  ltac:(vm_compute; reflexivity) ltac:(vm_compute; reflexivity) ltac:(vm_compute; reflexivity).
Definition by_define_record_type := by_rules define_record_type_text define_record_type_rules
  ltac:(vm_compute; reflexivity) ltac:(vm_compute; reflexivity) ltac:(vm_compute; reflexivity).
Notation name u k := (Id (alias u (sym k))).
Lemma field_1 u kw t tag a : expands define_record_field_text u (Pair kw (dlist [t; tag; a]))
  (dlist [name u "define"; a; dlist [name u "record-accessor"; t; dlist [name u "quote"; tag]]]).
Proof. step by_define_record_field define_record_field_rules. { matched. } cbn [dlist]. fill. Qed.
Lemma field_2 u kw t tag a m : expands define_record_field_text u (Pair kw (dlist [t; tag; a; m]))
  (dlist [name u "begin"; dlist [name u "define"; a; dlist [name u "record-accessor"; t; dlist [name u "quote"; tag]]];
                          dlist [name u "define"; m; dlist [name u "record-modifier"; t; dlist [name u "quote"; tag]]]]).
Proof. step by_define_record_field define_record_field_rules. { skip. matched. } cbn [dlist]. fill. Qed.

(** ((x y . z) ...) *)
Lemma match_fields u x y z l : blank_ x = false -> blank_ y = false -> blank_ z = false -> dots_ (Id y) = false ->
  x <> y -> x <> z -> y <> z ->
  matching dots_ literal_ blank_ (fits_ u) (Pair (Pair (Id x) (Pair (Id y) (Id z))) (Pair (Id (sym "...")) Nil)) (dlist (map (fun '(a, b, c) => Pair a (Pair b c)) l)) =
  Some [(x, Many (map (fun '(a, b, c) => One a) l)); (y, Many (map (fun '(a, b, c) => One b) l)); (z, Many (map (fun '(a, b, c) => One c) l))].
Proof.
  intros Bx By Bz Dy N1 N2 N3. set (p := Pair (Id x) (Pair (Id y) (Id z))).
  assert (M : forall a b c, matching dots_ literal_ blank_ (fits_ u) p (Pair a (Pair b c)) = Some [(x, One a); (y, One b); (z, One c)]).
  { intros a b c. unfold p. rewrite match_pair by (cbn [starts]; exact Dy). rewrite match_pair by reflexivity. now rewrite !match_variable by assumption. }
  assert (V : variables dots_ literal_ blank_ p = [x; y; z]).
  { unfold p. cbn [variables starts]. rewrite Dy. cbn [literal_ elements existsb orb]. rewrite Bx, By, Bz. reflexivity. }
  cbn [matching starts]. replace (dots_ (Id (sym "..."))) with true by reflexivity. fold p. cbn [pairs]. rewrite pairs_dlist, Nat.sub_0_r.
  cbn [Nat.leb]. rewrite elements_dlist, firstn_all, after_dlist, V.
  assert (E : every (map (matching dots_ literal_ blank_ (fits_ u) p) (map (fun '(a, b, c) => Pair a (Pair b c)) l)) = Some (map (fun '(a, b, c) => [(x, One a); (y, One b); (z, One c)]) l)).
  { induction l as [|[[a b] c] l IH]; [reflexivity|]. cbn [map every]. rewrite M, IH. reflexivity. }
  etransitivity; [apply (f_equal (fun o => match o with Some ss => both (Some (sequences [x; y; z] ss)) (if same Nil Nil then Some [] else None) | None => None end) E)|].
  cbn [sequences map both app]. replace (same Nil Nil) with true by reflexivity. cbn [both app]. rewrite !map_map.
  do 2 f_equal; [|f_equal; [|f_equal]]; f_equal; f_equal; apply map_ext; intros [[a b] c]; cbn [get]; rewrite ?Nat.eqb_refl; try reflexivity.
  - destruct (Nat.eqb_spec y x); [congruence|]. reflexivity.
  - destruct (Nat.eqb_spec z x); [congruence|]. destruct (Nat.eqb_spec z y); [congruence|]. reflexivity.
Qed.
(** t ..., where t has no ellipses of its own *)
Lemma filled_copies u s t l ds r y : dots_ t = false -> starts dots_ r = false -> again s t <> [] ->
  (forall x, In x (again s t) -> exists m, get s x = Some (Many m) /\ length m = l) -> length ds = l ->
  (forall i, i < l -> instance dots_ (fun x => ren u (Id x)) true (pick i (again s t) s) t (nth i ds Nil)) ->
  instance dots_ (fun x => ren u (Id x)) true s r y ->
  instance dots_ (fun x => ren u (Id x)) true s (Pair t (Pair (Id (sym "...")) r)) (prepend ds y).
Proof.
  intros D S A G L I R.
  replace (prepend ds y) with (prepend (concat (map (fun d => [d]) ds)) y) by (f_equal; clear; induction ds as [|d ds IH]; cbn; congruence).
  apply (I_ellipsis _ _ s t _ 0 r); [exact D| |apply (C_many _ _ s t 0 l); [exact A|exact G|now rewrite map_length|]|exact R].
  - exists (Id (sym "...")), r. repeat split; assumption.
  - intros i Hi. rewrite nth_indep with (d' := [Nil]) by (rewrite map_length; lia). rewrite (map_nth (fun d => [d])). constructor. now apply I.
Qed.
Definition parts (f : field) : datum * datum * datum := (Id (tag f), Id (accessor f), more f).
Lemma record_1 u kw type constructor ctags predicate fields : expands define_record_type_text u (Pair kw (record_form type constructor ctags predicate fields))
  (Pair (name u "begin") (dlist (
    [dlist [name u "define"; Id type; dlist [name u "make-record-type"; dlist [name u "quote"; Id type]; dlist [name u "quote"; dlist (map Id (map tag fields))]]];
     dlist [name u "define"; Id constructor; dlist [name u "record-constructor"; Id type; dlist [name u "quote"; dlist (map Id ctags)]]];
     dlist [name u "define"; Id predicate; dlist [name u "record-predicate"; Id type]]] ++
    map (fun f => Pair (name u "define-record-field") (Pair (Id type) (field_form f))) fields))).
Proof.
  assert (E : map field_form fields = map (fun '(a, b, c) => Pair a (Pair b c)) (map parts fields)) by (rewrite map_map; reflexivity).
  step by_define_record_type define_record_type_rules.
  { unfold record_form. rewrite E. cbn [dlist].
    repeat first [rewrite match_pair by reflexivity | rewrite match_fields by (reflexivity || discriminate) | rewrite match_each by reflexivity | rewrite match_variable by reflexivity
      | rewrite match_nil]; cbn [both app]; reflexivity. }
  rewrite !map_map. cbn [parts]. cbn [dlist app].
  assert (T : dlist (map (fun x => Id (tag x)) fields) = prepend (map (fun x => Id (tag x)) fields) Nil) by (symmetry; apply prepend_nil). rewrite T.
  assert (T2 : dlist (map Id ctags) = prepend (map Id ctags) Nil) by (symmetry; apply prepend_nil). rewrite T2.
  assert (T3 : forall l, dlist l = prepend l Nil) by (intros l; symmetry; apply prepend_nil). rewrite T3.
  fill.
  - eapply filled_each; [cbn [get Nat.eqb]; now rewrite map_map|reflexivity|reflexivity|fill].
  - eapply filled_each; [cbn [get Nat.eqb]; now rewrite map_map|reflexivity|reflexivity|fill].
  - match goal with |- instance _ _ _ ?s (Pair ?t _) _ => assert (A : again s t = [110; 112; 126]) by reflexivity end.
    eapply (filled_copies _ _ _ (length fields)); [reflexivity|reflexivity|rewrite A; discriminate| |now rewrite map_length| |fill].
    + rewrite A. intros x [<-|[<-|[<-|[]]]]; cbn [get Nat.eqb]; eexists; (split; [reflexivity|now rewrite map_length]).
    + intros i Hi. rewrite A. set (f := nth i fields (Field 0 0 None)).
      assert (Q : forall (F : field -> datum), nth i (map F fields) Nil = F f).
      { intros F. rewrite (nth_indep _ _ (F (Field 0 0 None))) by now rewrite map_length. apply map_nth. }
      rewrite (Q (fun f => Pair (name u "define-record-field") (Pair (Id type) (field_form f)))). unfold field_form.
      assert (P : forall (F : field -> datum), nth i (map (fun x => One (F x)) fields) (One Nil) = One (F f)).
      { intros F. rewrite (nth_indep _ _ (One (F (Field 0 0 None)))) by now rewrite map_length. exact (map_nth (fun x => One (F x)) fields _ i). }
      cbn [pick map existsb Nat.eqb orb]. rewrite !P. fill.
Qed.

(** ** Running the definitions *)
Scheme runs_mut := Minimality for runs Sort Prop with runs_all_mut := Minimality for runs_all Sort Prop.
Lemma quoted_same d d' q : quoted d q -> quoted d' q -> d = d'.
Proof. intros [h _] H. inversion H; subst. reflexivity. Qed.
Lemma map_id_inj l m : map Id l = map Id m -> l = m.
Proof. revert m. induction l as [|x l IH]; intros [|y m]; cbn; intros H; try discriminate; auto. injection H as -> H. f_equal. auto. Qed.
Lemma computes_det g h e o o' : computes g h e o -> computes g h e o' -> o = o'.
Proof.
  intros H H'. inversion H; subst; inversion H'; subst; try differ;
    repeat match goal with A : g ?x = Some _, B : g ?x = Some _ |- _ => rewrite A in B; injection B as -> end;
    repeat match goal with A : quoted _ ?q, B : quoted _ ?q |- _ => pose proof (quoted_same _ _ _ A B); clear B end;
    repeat match goal with A : Id _ = Id _ |- _ => injection A as -> | A : dlist _ = dlist _ |- _ => apply dlist_inj, map_id_inj in A; subst end; subst; try reflexivity.
Qed.
Lemma runs_det : forall u g h d o, runs u g h d o -> forall o', runs u g h d o' -> o = o'.
Proof.
  apply (runs_mut (fun u g h d o => forall o', runs u g h d o' -> o = o') (fun u g h ds o => forall o', runs_all u g h ds o' -> o = o')).
  - intros u g h f x e v h' F C o' H. inversion H; subst; try differ.
    + match goal with D : computes _ _ _ (Some (?w, ?k)) |- Some (define g x v, h') = Some (define g x ?w, ?k) => pose proof (computes_det _ _ _ _ _ C D) as E; injection E as -> ->; reflexivity end.
    + match goal with D : computes _ _ _ None |- _ => pose proof (computes_det _ _ _ _ _ C D); discriminate end.
  - intros u g h f x e F C o' H. inversion H; subst; try differ; [|reflexivity].
    match goal with D : computes _ _ _ (Some _) |- _ => pose proof (computes_det _ _ _ _ _ C D); discriminate end.
  - intros u g h f ds o F _ IH o' H. inversion H; subst; try differ.
    match goal with A : dlist _ = dlist ds |- _ => apply dlist_inj in A; subst end. now apply IH.
  - intros u g h f args d o F X _ IH o' H. inversion H; subst; try differ.
    match goal with Y : expands _ _ _ ?d' |- _ => assert (E : d = d') by exact (expands_det _ _ _ _ _ X Y); subst; now apply IH end.
  - intros u g h o' H. inversion H. reflexivity.
  - intros u g h d ds _ IH o' H. inversion H; subst; [reflexivity|]. match goal with R : runs _ _ _ d (Some _) |- _ => apply IH in R; discriminate end.
  - intros u g h d ds g' h' o _ IH1 _ IH2 o' H. inversion H; subst.
    + match goal with R : runs _ _ _ d None |- _ => apply IH1 in R; discriminate end.
    + match goal with R : runs _ _ _ d (Some _) |- _ => apply IH1 in R; injection R as <- <- end. now apply IH2.
Qed.

(** ** The procedures of Records.v *)
Lemma replace_last {A} (h : list A) v w : Records.replace (h ++ [v]) (length h) w = h ++ [w].
Proof. induction h; cbn; congruence. Qed.
Lemma nth_last {A} (h : list A) v : nth_error (h ++ [v]) (length h) = Some v.
Proof. induction h; cbn; auto. Qed.
Lemma make_record_type_ok h n tags : Records.make_record_type h n tags =
  Some (h ++ [[Records.Marker; Records.Ref 0; Records.Sym n; Records.Tags tags]], Records.Ref (length h)).
Proof.
  unfold Records.make_record_type, Records.make_record, Records.make_vector, Records.record_set, Records.vector_set. cbn [repeat Nat.add].
  do 4 (rewrite nth_last; cbn [length Nat.ltb Nat.leb Records.bind Records.replace]; rewrite replace_last; cbn [Records.bind]). reflexivity.
Qed.
Lemma tags_ok h n tags : Records.record_type_field_tags (h ++ [[Records.Marker; Records.Ref 0; Records.Sym n; Records.Tags tags]]) (Records.Ref (length h)) = Some tags.
Proof. unfold Records.record_type_field_tags, Records.record_ref, Records.vector_ref. rewrite nth_last. reflexivity. Qed.
Lemma index_loop_in tag tags i : In tag tags <-> Records.index_loop tag i tags <> None.
Proof.
  revert i. induction tags as [|t tags IH]; intros i; cbn; [intuition|]. destruct (Nat.eqb_spec tag t) as [->|N]; [split; [discriminate|auto]|].
  rewrite <- IH. intuition congruence.
Qed.
Section Type_.
Variables (h : Records.store) (t : Records.value) (tags : list nat).
Hypothesis T : Records.record_type_field_tags h t = Some tags.
Lemma field_index_in tag : In tag tags <-> Records.field_index h t tag <> None.
Proof. unfold Records.field_index. rewrite T. cbn. apply index_loop_in. Qed.
Lemma constructor_in ctags : incl ctags tags <-> Records.record_constructor h t ctags <> None.
Proof.
  unfold Records.record_constructor. rewrite T. cbn. set (is := Records.field_indexes h t ctags). enough (E : incl ctags tags <-> is <> None) by (rewrite E; destruct is; cbn; intuition congruence).
  subst is. induction ctags as [|c cs IH]; cbn; [split; [discriminate|intros _ x []]|].
  split.
  - intros I. assert (Records.field_index h t c <> None) by (apply field_index_in, I; now left). assert (Records.field_indexes h t cs <> None) by (apply IH; intros x J; apply I; now right).
    destruct (Records.field_index h t c), (Records.field_indexes h t cs); cbn; congruence.
  - intros N x [<-|J].
    + apply field_index_in. destruct (Records.field_index h t c); cbn in N; congruence.
    + apply IH; [|exact J]. destruct (Records.field_index h t c), (Records.field_indexes h t cs); cbn in N; congruence.
Qed.
Lemma fields_run u v type fields : forall g, g type = Some (Value t) -> ~ In type (concat (map field_names fields)) -> NoDup (concat (map field_names fields)) -> incl (map tag fields) tags ->
  exists g', runs_all u g h (map (fun f => Pair (Id (alias v (sym "define-record-field"))) (Pair (Id type) (field_form f))) fields) (Some (g', h)) /\
    (forall f, In f fields -> exists i, Records.field_index h t (tag f) = Some i /\ g' (accessor f) = Some (Accessor t i) /\ forall m, modifier f = Some m -> g' m = Some (Modifier t i)) /\
    forall x, ~ In x (concat (map field_names fields)) -> g' x = g x.
Proof.
  induction fields as [|f fields IH]; intros g G NT ND I.
  - exists g. split; [constructor|]. split; [intros f []|reflexivity].
  - cbn [map concat] in ND, NT. assert (J : Records.field_index h t (tag f) <> None) by (apply field_index_in, I; now left).
    destruct (Records.field_index h t (tag f)) as [i|] eqn:Ei; [|congruence]. clear J.
    assert (S1 : exists g1, runs u g h (Pair (Id (alias v (sym "define-record-field"))) (Pair (Id type) (field_form f))) (Some (g1, h)) /\
      g1 (accessor f) = Some (Accessor t i) /\ (forall m, modifier f = Some m -> g1 m = Some (Modifier t i)) /\ forall x, ~ In x (field_names f) -> g1 x = g x).
    { unfold field_form, more, field_names in *. destruct f as [tg ac [md|]]; cbn [tag accessor modifier] in *.
      - assert (N1 : type <> ac) by (intros ->; apply NT; now left). assert (N2 : ac <> md) by (inversion ND as [|? ? N _]; intros ->; apply N; now left).
        eexists. split.
        { eapply R_macro; [apply is_name|apply field_2|]. eapply (R_begin _ _ _ _ [_; _]); [apply is_name|].
          eapply RA_cons; [eapply R_define; [apply is_name|]|eapply RA_cons; [eapply R_define; [apply is_name|]|apply RA_nil]].
          - replace (Some _) with (with_store h (Accessor t) (Records.field_index h t tg)) by (rewrite Ei; reflexivity). eapply C_accessor; [apply is_name|exact G|constructor; apply is_name].
          - replace (Some _) with (with_store h (Modifier t) (Records.field_index h t tg)) by (rewrite Ei; reflexivity).
            eapply C_modifier; [apply is_name| |constructor; apply is_name]. unfold define. destruct (Nat.eqb_spec type ac); [congruence|exact G]. }
        unfold define. split; [destruct (Nat.eqb_spec ac md); [congruence|now rewrite Nat.eqb_refl]|]. split; [intros m [= <-]; now rewrite Nat.eqb_refl|].
        intros x Nx. destruct (Nat.eqb_spec x md) as [->|]; [exfalso; apply Nx; right; now left|]. destruct (Nat.eqb_spec x ac) as [->|]; [exfalso; apply Nx; now left|reflexivity].
      - eexists. split.
        { eapply R_macro; [apply is_name|apply field_1|]. eapply R_define; [apply is_name|].
          replace (Some _) with (with_store h (Accessor t) (Records.field_index h t tg)) by (rewrite Ei; reflexivity). eapply C_accessor; [apply is_name|exact G|constructor; apply is_name]. }
        unfold define. split; [now rewrite Nat.eqb_refl|]. split; [discriminate|]. intros x Nx. destruct (Nat.eqb_spec x ac) as [->|]; [exfalso; apply Nx; now left|reflexivity]. }
    destruct S1 as (g1 & R1 & A1 & M1 & O1).
    assert (ND2 : NoDup (concat (map field_names fields))) by (clear -ND; revert ND; generalize (field_names f); intros l; induction l as [|x l IH]; cbn; [auto|]; intros N; inversion N; auto).
    assert (Dis : forall x, In x (field_names f) -> ~ In x (concat (map field_names fields))).
    { clear -ND. revert ND. generalize (field_names f). intros l; induction l as [|y l IH]; cbn; [intros _ x []|]. intros N x [<-|J]; inversion N; subst; [intros K; auto using in_or_app|now apply IH]. }
    destruct (IH g1) as (g' & R2 & F2 & O2); auto.
    { rewrite O1; [exact G|]. intros K. apply NT. apply in_or_app. now left. }
    { intros K. apply NT. apply in_or_app. now right. }
    { intros x K. apply I. now right. }
    exists g'. split; [cbn [map]; eapply RA_cons; eassumption|]. split.
    + intros f' [<-|K]; [|now apply F2]. exists i. split; [exact Ei|]. unfold field_names in Dis.
      split; [rewrite O2; [exact A1|apply Dis; now left]|]. intros m M. rewrite O2; [now apply M1|]. apply Dis. rewrite M. right. now left.
    + intros x K. rewrite O2, O1; [reflexivity| |]; intros L; apply K; cbn [map concat]; apply in_or_app; auto.
Qed.
End Type_.
Theorem record_ok u kw type constructor ctags predicate fields : NoDup (defined_names type constructor predicate fields) ->
  exists d, expands define_record_type_text u (Pair kw (record_form type constructor ctags predicate fields)) d /\
    forall g h, (incl ctags (map tag fields) -> exists g' h', runs (S u) g h d (Some (g', h')) /\ record_type_defined type constructor ctags predicate fields g h g' h') /\
                (~ incl ctags (map tag fields) -> runs (S u) g h d None).
Proof.
  intros ND. eexists. split; [apply record_1|]. intros g h.
  set (h' := h ++ [[Records.Marker; Records.Ref 0; Records.Sym type; Records.Tags (map tag fields)]]). set (t := Records.Ref (length h)).
  assert (T : Records.record_type_field_tags h' t = Some (map tag fields)) by apply tags_ok.
  inversion ND as [|? ? N1 ND1]; subst. inversion ND1 as [|? ? N2 ND2]; subst. inversion ND2 as [|? ? N3 ND3]; subst.
  assert (First : forall q, quoted (dlist (map Id (map tag fields))) q -> computes g h (dlist [name u "make-record-type"; dlist [name u "quote"; Id type]; q]) (Some (Value t, h'))).
  { intros q Q. replace (Some (Value t, h')) with (option_map (fun '(h', t) => (Value t, h')) (Records.make_record_type h type (map tag fields))) by (rewrite make_record_type_ok; reflexivity).
    apply C_type; [apply is_name|constructor; apply is_name|exact Q]. }
  assert (G1 : define g type (Value t) type = Some (Value t)) by (unfold define; now rewrite Nat.eqb_refl).
  pose proof (constructor_in h' t _ T ctags) as CI.
  split; intros I.
  - apply CI in I. destruct (Records.record_constructor h' t ctags) as [k|] eqn:K; [|congruence].
    set (g3 := define (define (define g type (Value t)) constructor (Constructor k)) predicate (Predicate t)).
    assert (G2 : define (define g type (Value t)) constructor (Constructor k) type = Some (Value t)).
    { unfold define. destruct (Nat.eqb_spec type constructor) as [->|]; [exfalso; apply N1; now left|now rewrite Nat.eqb_refl]. }
    assert (G3 : g3 type = Some (Value t)).
    { unfold g3. unfold define at 1. destruct (Nat.eqb_spec type predicate) as [->|]; [exfalso; apply N1; right; now left|exact G2]. }
    destruct (fields_run h' t _ T (S u) u type fields g3 G3) as (g' & R & F & O); auto; [intros J; apply N1; right; now right|intros x J; exact J|].
    exists g', h'. split.
    + eapply R_begin; [apply is_name|]. cbn [app]. eapply RA_cons; [eapply R_define; [apply is_name|apply First; constructor; apply is_name]|].
      eapply RA_cons; [eapply R_define; [apply is_name|]|].
      { replace (Some _) with (with_store h' Constructor (Records.record_constructor h' t ctags)) by (rewrite K; reflexivity). eapply C_constructor; [apply is_name|exact G1|constructor; apply is_name]. }
      eapply RA_cons; [eapply R_define; [apply is_name|apply C_predicate; [apply is_name|exact G2]]|]. exact R.
    + exists t, k. split; [apply make_record_type_ok|]. split; [rewrite O; [exact G3|intros J; apply N1; right; now right]|]. split; [exact K|].
      split. { rewrite O; [|intros J; apply N2; now right]. unfold g3, define. destruct (Nat.eqb_spec constructor predicate) as [->|]; [exfalso; apply N2; now left|now rewrite Nat.eqb_refl]. }
      split. { rewrite O; [|exact N3]. unfold g3, define. now rewrite Nat.eqb_refl. }
      split; [exact F|]. intros x J. unfold defined_names in J. rewrite O; [|intros L; apply J; right; right; now right]. unfold g3, define.
      destruct (Nat.eqb_spec x predicate) as [->|]; [exfalso; apply J; right; right; now left|]. destruct (Nat.eqb_spec x constructor) as [->|]; [exfalso; apply J; right; now left|].
      destruct (Nat.eqb_spec x type) as [->|]; [exfalso; apply J; now left|reflexivity].
  - assert (K : Records.record_constructor h' t ctags = None) by (destruct (Records.record_constructor h' t ctags); [exfalso; apply I, CI; discriminate|reflexivity]).
    eapply R_begin; [apply is_name|]. cbn [app]. eapply RA_cons; [eapply R_define; [apply is_name|apply First; constructor; apply is_name]|].
    apply RA_error. apply R_error; [apply is_name|].
    replace None with (with_store h' Constructor (Records.record_constructor h' t ctags)) by (rewrite K; reflexivity). eapply C_constructor; [apply is_name|exact G1|constructor; apply is_name].
Qed.
