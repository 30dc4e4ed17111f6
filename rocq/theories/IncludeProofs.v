From Coq Require Import String ZArith List Bool Lia.
From Verif Require Import Number NumberText TextPort Writer CondExpand Include IncludeSpec.
Import ListNotations.
Open Scope Z_scope.

Lemma split_last_none c l : split_last c l = None <-> ~ In c l.
Proof.
  induction l as [|x l IH]; simpl; [tauto|].
  destruct (split_last c l) as [[a b]|] eqn:E.
  - split; [discriminate|]. intros H. assert (X : ~ In c l) by tauto. apply IH in X. discriminate.
  - destruct (Z.eqb_spec x c); split; try discriminate; intuition.
Qed.
Lemma split_last_some c l a b : split_last c l = Some (a, b) <-> l = a ++ c :: b /\ ~ In c b.
Proof.
  revert a b; induction l as [|x l IH]; intros a b; simpl.
  - split; [discriminate|]. intros [H _]. destruct a; discriminate.
  - destruct (split_last c l) as [[a' b']|] eqn:E.
    + destruct (proj1 (IH a' b') eq_refl) as [-> Hb]. split.
      * intros H; inversion H; subst. split; [reflexivity|assumption].
      * intros [H Hn]. destruct a as [|y a]; simpl in H.
        -- inversion H; subst. destruct Hn. apply in_or_app; right; left; reflexivity.
        -- inversion H; subst.
           assert (X : Some (a', b') = Some (a, b)) by (apply IH; split; assumption). inversion X; reflexivity.
    + pose proof (proj1 (split_last_none c l) E) as Hn.
      destruct (Z.eqb_spec x c) as [->|Hx]; split; intros H.
      * inversion H; subst. split; [reflexivity|assumption].
      * destruct H as [H Hb]. destruct a as [|y a]; simpl in H; inversion H; subst; [reflexivity|].
        destruct Hn. apply in_or_app; right; left; reflexivity.
      * discriminate.
      * destruct H as [H Hb]. destruct a as [|y a]; simpl in H; inversion H; subst; [congruence|].
        destruct Hn. apply in_or_app; right; left; reflexivity.
Qed.
Lemma split_last_app c d name : ~ In c name -> split_last c (d ++ c :: name) = Some (d, name).
Proof. intros H. apply split_last_some. tauto. Qed.

Lemma filename_ends p name : ends_in p name -> filename p = name.
Proof.
  intros (H0 & H1 & [->|[d ->]]); unfold filename.
  - rewrite (proj2 (split_last_none 47 name) H1). reflexivity.
  - rewrite split_last_app by assumption. reflexivity.
Qed.
Lemma filename_spec p : filename p <> [] -> ends_in p (filename p).
Proof.
  unfold filename. destruct (split_last 47 p) as [[a b]|] eqn:E; intros H.
  - apply split_last_some in E. destruct E as [-> E]. split; [assumption|split; [assumption|]]. right. eauto.
  - apply split_last_none in E. split; [assumption|split; [assumption|]]. left; reflexivity.
Qed.
Lemma ends_in_app d p name : ends_in p name -> ends_in (d ++ 47 :: p) name.
Proof.
  intros (H0 & H1 & H). split; [assumption|split; [assumption|]]. right.
  destruct H as [->|[e ->]]; [eauto|]. exists (d ++ 47 :: e). rewrite <- app_assoc. reflexivity.
Qed.
Lemma filename_nil p : filename p = [] -> p = [] \/ exists d, p = d ++ [47].
Proof.
  unfold filename. destruct (split_last 47 p) as [[a b]|] eqn:E; [|auto].
  apply split_last_some in E. destruct E as [-> E]. intros ->. right. eauto.
Qed.
Lemma filename_slash d : filename (d ++ [47]) = [].
Proof. unfold filename. rewrite split_last_app; [reflexivity|simpl; tauto]. Qed.

Lemma absolute_spec p : if is_absolute p then absolute p else ~ absolute p.
Proof.
  destruct p as [|c p]; simpl; [intros [r H]; discriminate|].
  destruct (Z.eqb_spec c 47) as [->|H]; [exists p; reflexivity|]. intros [r E]. inversion E; congruence.
Qed.
Lemma join_seen d given : seen_from d given (join d given).
Proof.
  unfold seen_from, join. pose proof (absolute_spec given) as A. destruct (is_absolute given); [left; auto|right].
  split; [assumption|]. destruct (filename d) eqn:E.
  - apply filename_nil in E. destruct E as [->|[e ->]]; [left; auto|right; left; eauto].
  - right; right. destruct (exists_last (l := d)) as (e & c & ->); [intros ->; discriminate|].
    exists e, c. split; [reflexivity|split; [|reflexivity]]. intros ->. rewrite filename_slash in E. discriminate.
Qed.
Lemma seen_unique d given p : seen_from d given p -> p = join d given.
Proof.
  intros H. pose proof (join_seen d given) as J. unfold seen_from in *.
  destruct H as [[A ->]|[A H]]; destruct J as [[A' ->]|[A' J]]; try reflexivity; try contradiction.
  revert H J. generalize (join d given). intros r.
  intros [[D ->]|[[e [D ->]]|[e [c [D [C ->]]]]]] [[D' ->]|[[e' [D' ->]]|[e' [c' [D' [C' ->]]]]]];
    try reflexivity; rewrite D in D'; try (destruct e; discriminate); try (destruct e'; discriminate);
    try (apply app_inj_tail in D'; destruct D' as [_ D']; congruence).
Qed.
Lemma join_ends d given name : ends_in given name -> ends_in (join d given) name.
Proof.
  intros H. destruct (join_seen d given) as [[_ ->]|[_ [[_ ->]|[[e [-> ->]]|[e [c [_ [_ ->]]]]]]]]; try assumption.
  - rewrite <- app_assoc. apply (ends_in_app e given name H).
  - apply ends_in_app; assumption.
Qed.

Lemma extension_name p name : ends_in p name -> extension p = extension name.
Proof.
  intros H. unfold extension. rewrite (filename_ends _ _ H).
  rewrite (filename_ends name name); [reflexivity|]. destruct H as (H & H' & _). repeat split; auto.
Qed.
Lemma extension_bare p name : ends_in p name -> (extension p = [] <-> bare name).
Proof.
  intros H. unfold extension. rewrite (filename_ends _ _ H). unfold same_path_text, bare.
  destruct (list_eq_dec Z.eq_dec name [46; 46]) as [->|Hd]; [tauto|].
  destruct (split_last 46 name) as [[a b]|] eqn:E.
  - apply split_last_some in E. destruct E as [E Hn]. destruct a as [|x a].
    + split; [|reflexivity]. intros _. right. intros a' b' E'. simpl in E. subst name.
      destruct a' as [|y a']; [reflexivity|]. exfalso. simpl in E'. inversion E'; subst.
      apply Hn. apply in_or_app; right; left; reflexivity.
    + split; [discriminate|]. intros [|B]; [congruence|]. apply B in E. discriminate.
  - split; [|reflexivity]. intros _. right. intros a b E'. apply split_last_none in E. destruct E. subst. apply in_or_app; right; left; reflexivity.
Qed.

Lemma replace_bare p name e : ends_in p name -> bare name -> e <> [] -> ~ In 46 e -> replace_extension p e = p ++ 46 :: e.
Proof.
  intros H B E0 E. unfold replace_extension. rewrite (proj2 (extension_bare p name H) B).
  rewrite Nat.sub_0_r, firstn_all. destruct e as [|c e]; [congruence|].
  destruct (Z.eqb_spec c 46) as [->|]; [|reflexivity]. destruct E; left; reflexivity.
Qed.
Lemma extended_ends p name e : ends_in p name -> ~ In 47 e -> ends_in (p ++ 46 :: e) (name ++ 46 :: e).
Proof.
  intros (H0 & H1 & H) E. split; [destruct name; discriminate|]. split.
  - intros I. apply in_app_or in I. destruct I as [I|[I|I]]; [tauto|discriminate|tauto].
  - destruct H as [->|[d ->]]; [left; reflexivity|right]. exists d. rewrite <- app_assoc. reflexivity.
Qed.
Lemma extension_extended p name e : ends_in p name -> bare name -> ~ In 46 e -> ~ In 47 e -> e <> [] ->
  extension (p ++ 46 :: e) = 46 :: e.
Proof.
  intros H B E E' E0. unfold extension. rewrite (filename_ends _ _ (extended_ends _ _ _ H E')).
  unfold same_path_text. destruct (list_eq_dec Z.eq_dec (name ++ 46 :: e) [46; 46]) as [X|_].
  - destruct H as (H & _). exfalso. destruct name as [|x [|y name]]; [congruence| |]; simpl in X; inversion X; subst; try congruence.
    destruct name; discriminate.
  - rewrite split_last_app by assumption. destruct H as (H & _). destruct name; [congruence|reflexivity].
Qed.
Lemma replace_extended p name e e' : ends_in p name -> bare name -> ~ In 46 e -> ~ In 47 e -> e <> [] -> e' <> [] -> ~ In 46 e' ->
  replace_extension (p ++ 46 :: e) e' = p ++ 46 :: e'.
Proof.
  intros H B E E1 E2 E3 E4. unfold replace_extension. rewrite (extension_extended p name e) by assumption.
  rewrite app_length. replace (length p + length (46%Z :: e) - length (46%Z :: e))%nat with (length p + 0)%nat by lia.
  rewrite firstn_app_2, firstn_O, app_nil_r. destruct e' as [|c e']; [congruence|].
  destruct (Z.eqb_spec c 46) as [->|]; [|reflexivity]. destruct E4; left; reflexivity.
Qed.

(** The places of one directory *)
Fixpoint first (acc : path -> bool) (l : list path) : option path :=
  match l with [] => None | p :: l => if acc p then Some p else first acc l end.
Lemma first_spec acc l p : first acc l = Some p <-> first_of acc l p.
Proof.
  induction l as [|q l IH]; simpl.
  - split; [discriminate|]. intros (b & a & H & _). destruct b; discriminate.
  - destruct (acc q) eqn:E; split.
    + intros H; inversion H; subst. exists [], l. auto.
    + intros (b & a & H & H1 & H2). destruct b as [|r b]; simpl in H; inversion H; subst; [reflexivity|].
      inversion H2; subst. congruence.
    + intros H. apply IH in H. destruct H as (b & a & -> & H1 & H2). exists (q :: b), a. auto.
    + intros (b & a & H & H1 & H2). destruct b as [|r b]; simpl in H; inversion H; subst; [congruence|].
      apply IH. inversion H2; subst. exists b, a. auto.
Qed.
Lemma first_none acc l : first acc l = None <-> Forall (fun q => acc q = false) l.
Proof.
  induction l as [|q l IH]; simpl; [split; [constructor|reflexivity]|].
  destruct (acc q) eqn:E; split; intros H; try discriminate.
  - inversion H; congruence.
  - constructor; [assumption|apply IH; assumption].
  - apply IH. inversion H; assumption.
Qed.
Lemma first_app acc l m : first acc (l ++ m) = match first acc l with Some p => Some p | None => first acc m end.
Proof. induction l as [|q l IH]; simpl; [reflexivity|]. destruct (acc q); [reflexivity|assumption]. Qed.

Lemma try_in_first fs d given name sfx : ends_in given name -> suffixes name sfx ->
  try_in fs d given = first (accept fs) (map (app (join d given)) sfx).
Proof.
  intros H S. unfold try_in. set (p := join d given).
  assert (P : ends_in p name) by (apply join_ends; assumption).
  destruct S as [[B ->]|[B ->]].
  - rewrite (proj2 (extension_bare given name H) B). cbn [map first]. rewrite app_nil_r.
    unfold extensions. cbn [try_extensions].
    assert (A1 : ~ In 46 (codes "ss") /\ ~ In 46 (codes "sld") /\ ~ In 46 (codes "scm") /\ ~ In 47 (codes "ss") /\ ~ In 47 (codes "sld")) by (simpl; lia).
    destruct A1 as (A1 & A2 & A3 & A4 & A5).
    rewrite (replace_bare p name (codes "ss")) by (try assumption; discriminate).
    rewrite (replace_extended p name (codes "ss") (codes "sld")) by (try assumption; discriminate).
    rewrite (replace_extended p name (codes "sld") (codes "scm")) by (try assumption; discriminate).
    reflexivity.
  - destruct (extension given) eqn:E; [|simpl; rewrite app_nil_r; reflexivity].
    exfalso. apply B. apply (extension_bare given name H). assumption.
Qed.
Lemma try_each_first fs ds given name sfx l : ends_in given name -> suffixes name sfx -> places ds given sfx l ->
  try_each fs ds given = first (accept fs) l.
Proof.
  intros H S (ps & F & ->). revert F. revert ps. induction ds as [|d ds IH]; intros ps F; inversion F; subst; [reflexivity|].
  simpl. rewrite first_app. rewrite (try_in_first fs d given name sfx H S), <- (seen_unique _ _ _ H2).
  destruct (first (accept fs) (map (app y) sfx)); [reflexivity|]. apply IH; assumption.
Qed.
Lemma places_exist ds given sfx : places ds given sfx (flat_map (fun p => map (app p) sfx) (map (fun d => join d given) ds)).
Proof.
  exists (map (fun d => join d given) ds). split; [|reflexivity].
  induction ds; constructor; [apply join_seen|assumption].
Qed.
Lemma bare_dec name : {bare name} + {~ bare name}.
Proof.
  destruct (list_eq_dec Z.eq_dec name [46; 46]) as [->|H]; [left; left; reflexivity|].
  destruct (split_last 46 name) as [[[|x a] b]|] eqn:E.
  - left; right. intros a' b' ->. apply split_last_some in E. destruct E as [E Hn].
    destruct a' as [|y a']; [reflexivity|]. simpl in E. inversion E; subst. destruct Hn. apply in_or_app; right; left; reflexivity.
  - right. intros [->|B]; [congruence|]. apply split_last_some in E. destruct E as [E _]. apply B in E. discriminate.
  - left; right. intros a b ->. apply split_last_none in E. destruct E. apply in_or_app; right; left; reflexivity.
Qed.

(** *** The directory of a path *)
Lemma strip_none l : (forall a, l <> 47 :: a) -> strip_slashes l = l.
Proof. destruct l as [|c l]; intros H; simpl; [reflexivity|]. destruct (Z.eqb_spec c 47) as [->|]; [|reflexivity]. destruct (H l); reflexivity. Qed.
Lemma parent_spelt segments name : Forall component segments -> component name ->
  parent_path (spelt (segments ++ [name])) = match segments with [] => [47] | _ => spelt segments end.
Proof.
  intros F [N0 N1]. unfold parent_path, spelt. rewrite flat_map_app. simpl flat_map at 2. rewrite app_nil_r.
  rewrite split_last_app by assumption.
  destruct segments as [|s segments].
  - simpl. destruct name; [congruence|reflexivity].
  - destruct (exists_last (l := s :: segments)) as (l & t & E); [discriminate|]. rewrite E in *.
    apply Forall_app in F. destruct F as [_ F]. inversion F as [|? ? [T0 T1] _]; subst.
    rewrite flat_map_app. simpl flat_map. rewrite app_nil_r.
    destruct (exists_last (l := t)) as (t' & z & ->); [assumption|].
    rewrite strip_none.
    + rewrite rev_involutive. destruct l as [|u l].
      * simpl. rewrite app_nil_r. reflexivity.
      * simpl. rewrite flat_map_app. simpl. rewrite app_nil_r, <- app_assoc. reflexivity.
    + intros a X. rewrite rev_app_distr in X. simpl in X. rewrite rev_app_distr in X. simpl in X.
      inversion X; subst. apply T1. apply in_or_app; right; left; reflexivity.
Qed.
Lemma directory_source c d : directory_of c d -> source_directory c = d.
Proof.
  destruct c as [f|]; simpl; [|intros ->; reflexivity].
  intros (segments & name & F & N & -> & ->). apply parent_spelt; assumption.
Qed.

(** *** locate *)
Lemma locate_found fs c given p : found fs c given p -> locate fs c given = Done p.
Proof.
  unfold locate. intros [[A C]|[A (name & d & sfx & l & E & D & S & P & F)]]; rewrite A; [rewrite C; reflexivity|].
  rewrite (directory_source c d D), (try_each_first fs _ given name sfx l E S P).
  apply first_spec in F. rewrite F. reflexivity.
Qed.
Lemma locate_nowhere fs c given : nowhere fs c given -> locate fs c given = Fails NotLocated.
Proof.
  unfold locate. intros [A (name & d & sfx & l & E & D & S & P & F)]; rewrite A.
  rewrite (directory_source c d D), (try_each_first fs _ given name sfx l E S P).
  apply first_none in F. rewrite F. reflexivity.
Qed.
Lemma suffixes_exist name : exists sfx, suffixes name sfx.
Proof. destruct (bare_dec name); [eexists; left; eauto|eexists; right; eauto]. Qed.
Lemma located_or_nowhere fs c given name d : ends_in given name -> directory_of c d ->
  match locate fs c given with
  | Done p => found fs c given p
  | Fails NotLocated => nowhere fs c given
  | Fails why => why = FilesystemError /\ accept fs given = true /\ canonical fs given = None
  end.
Proof.
  intros E D. unfold locate. destruct (accept fs given) eqn:A.
  - destruct (canonical fs given) eqn:C; [left; auto|auto].
  - destruct (suffixes_exist name) as [sfx S].
    pose proof (places_exist (d :: current_path fs :: directories fs) given sfx) as P.
    rewrite (directory_source c d D), (try_each_first fs _ given name sfx _ E S P).
    destruct (first (accept fs) _) eqn:F.
    + right. split; [assumption|]. do 4 eexists. split; [exact E|]. split; [exact D|]. split; [exact S|]. split; [exact P|].
      apply first_spec. assumption.
    + split; [assumption|]. do 4 eexists. split; [exact E|]. split; [exact D|]. split; [exact S|]. split; [exact P|].
      apply first_none. assumption.
Qed.

(** *** include *)
Lemma include_acc fs fold c names : forall xs paths,
  include fs fold c names xs paths =
  match include fs fold c names [] paths with (Done ds, ps) => (Done (rev xs ++ ds), ps) | (Fails why, ps) => (Fails why, ps) end.
Proof.
  induction names as [| | | | | | |a IHa rest IH| |]; intros xs paths; try (simpl; rewrite app_nil_r; reflexivity).
  destruct a; try reflexivity. cbn [include].
  destruct (locate fs c (flat_map utf8 cs)) as [p|]; [|reflexivity].
  destruct (open_port fs p paths) as [[[c' p'] ps]|]; [|reflexivity].
  destruct (read_all fs fold p') as [ds|]; [|reflexivity].
  rewrite IH. rewrite (IH (_ ++ [])). destruct (include fs fold c rest [] ps) as [[es|] qs]; [|reflexivity].
  rewrite app_nil_r, rev_app_distr, !rev_involutive, app_assoc. reflexivity.
Qed.
Lemma include_all fs fold c : forall names found_files datas paths,
  Forall2 (fun s f => found fs c (flat_map utf8 s) f) names found_files ->
  Forall2 (holds fs fold) found_files datas ->
  exists ds ps, include fs fold c (list_datum (map Str names)) [] paths = (Done ds, ps) /\ map snd ds = concat datas.
Proof.
  induction names as [|s names IH]; intros fls datas paths F H; inversion F; subst; inversion H; subst.
  - exists [], paths. split; reflexivity.
  - match goal with X : holds _ _ _ _ |- _ => destruct X as [[n N] [O R]] end.
    cbn [map list_datum include]. rewrite (locate_found _ _ _ _ H2). unfold open_port. rewrite N.
    unfold read_all. rewrite O, R. rewrite include_acc.
    edestruct IH as (ds & ps & I & M); [eassumption|eassumption|]. rewrite I.
    eexists. exists ps. split; [reflexivity|]. rewrite app_nil_r, rev_involutive, map_app, M.
    rewrite map_map. simpl. rewrite map_id. reflexivity.
Qed.

Lemma each_in_order {W} run : forall xs (st st' : state W) e, each run xs st = (st', e) <-> in_order run xs st st' e.
Proof.
  induction xs as [|x xs IH]; intros st st' e; simpl.
  - split; intros H; [inversion H; constructor|inversion H; reflexivity].
  - destruct (run x st) as [st1 [why|]] eqn:R; split; intros H.
    + inversion H; subst. apply stops. assumption.
    + inversion H; subst; rewrite R in *; congruence.
    + eapply more; [eassumption|]. apply IH. assumption.
    + inversion H as [|? ? ? st2 ? ? R' I|? ? ? ? ? R']; subst; rewrite R in R'; inversion R'; subst. apply IH. assumption.
Qed.

(** *** The table of paths *)
Lemma components_in cur s : ~ In 47 s -> components cur s = [rev cur ++ s].
Proof.
  revert cur. induction s as [|x s IH]; intros cur H; simpl; [rewrite app_nil_r; reflexivity|].
  destruct (Z.eqb_spec x 47) as [->|]; [destruct H; left; reflexivity|].
  rewrite IH by (simpl in H; tauto). simpl. rewrite <- app_assoc. reflexivity.
Qed.
Lemma components_slash cur s p : ~ In 47 s -> rev cur ++ s <> [] -> components cur (s ++ 47 :: p) = (rev cur ++ s) :: components [] p.
Proof.
  revert cur. induction s as [|x s IH]; intros cur H N; cbn [app].
  - simpl. rewrite app_nil_r in *. destruct cur; [simpl in N; congruence|reflexivity].
  - cbn [components]. destruct (Z.eqb_spec x 47) as [->|]; [destruct H; left; reflexivity|].
    rewrite IH; simpl; rewrite <- ?app_assoc; [reflexivity|simpl in H; tauto|assumption].
Qed.
Lemma components_spelt segments : Forall component segments -> segments <> [] -> components [] (spelt segments) = segments.
Proof.
  induction segments as [|s segments IH]; intros F N; [congruence|]. inversion F as [|? ? [S0 S1] F']; subst.
  cbn [spelt flat_map]. cbn [app components]. simpl Z.eqb. destruct segments as [|t segments].
  - simpl. rewrite app_nil_r. rewrite components_in by assumption. reflexivity.
  - specialize (IH F' ltac:(discriminate)). unfold spelt in IH. cbn [flat_map app] in *.
    rewrite components_slash by (simpl; assumption). simpl rev. cbn [app]. cbn [components] in IH. simpl Z.eqb in IH.
    cbv iota in IH. rewrite IH. reflexivity.
Qed.
Lemma spelt_absolute segments : segments <> [] -> is_absolute (spelt segments) = true.
Proof. destruct segments; [congruence|reflexivity]. Qed.
Lemma same_path_tidy p segments : Forall component segments -> segments <> [] -> tidy p ->
  same_path (spelt segments) p = true <-> spelt segments = p.
Proof.
  intros F N [T|(segs & F' & N' & ->)]; unfold same_path; rewrite spelt_absolute by assumption.
  - pose proof (absolute_spec p) as A. destruct (is_absolute p); [contradiction|]. simpl. split; [discriminate|].
    intros <-. destruct T. destruct segments; [congruence|]. eexists; reflexivity.
  - rewrite spelt_absolute, !components_spelt by assumption. simpl.
    destruct (list_eq_dec (list_eq_dec Z.eq_dec) segments segs) as [->|E]; [tauto|].
    split; [discriminate|]. intros X. apply (f_equal (components [])) in X. rewrite !components_spelt in X by assumption. contradiction.
Qed.
Lemma find_path_tidy segments paths : Forall component segments -> segments <> [] -> Forall tidy paths ->
  (In (spelt segments) paths -> find_path (spelt segments) paths = Some (spelt segments)) /\
  (~ In (spelt segments) paths -> find_path (spelt segments) paths = None).
Proof.
  intros F N T. induction T as [|p paths Tp T IH]; simpl; [tauto|]. unfold find_path in *. simpl.
  pose proof (same_path_tidy p segments F N Tp) as S. destruct (same_path (spelt segments) p) eqn:E.
  - destruct (proj1 S eq_refl). split; [reflexivity|intros H; destruct H; left; reflexivity].
  - assert (p <> spelt segments) by (intros H; symmetry in H; apply S in H; discriminate). tauto.
Qed.

(** *** Fuel *)
Section Fuel.
  Context {W : Type}.
  Variable fs : files.
  Variable perform : context -> datum -> state W -> state W * option failure.
  Variable clauses : state W -> datum -> outcome datum.
  Notation evaluate := (evaluate fs perform).
  Notation declare := (declare fs perform clauses).

  Lemma each_more (r1 r2 : context * datum -> state W -> state W * option failure) :
    (forall x st, snd (r1 x st) <> Some Fuel -> r2 x st = r1 x st) ->
    forall xs st, snd (each r1 xs st) <> Some Fuel -> each r2 xs st = each r1 xs st.
  Proof.
    intros H. induction xs as [|x xs IH]; intros st; simpl; [reflexivity|].
    specialize (H x st). destruct (r1 x st) as [st1 [why|]]; simpl in H; intros N.
    - rewrite H by assumption. reflexivity.
    - rewrite H by discriminate. apply IH. assumption.
  Qed.
  Lemma evaluate_more n : forall x st, snd (evaluate n x st) <> Some Fuel -> evaluate (S n) x st = evaluate n x st.
  Proof.
    induction n as [|n IH]; intros x st H; [simpl in H; congruence|].
    change (evaluate (S (S n)) x st) with
      (let included fold_case names :=
         match include fs fold_case (fst x) names [] (paths st) with
         | (Done ds, ps) => each (evaluate (S n)) ds (State ps (world st))
         | (Fails why, ps) => (State ps (world st), Some why)
         end in
       match form_of "include" (snd x) with
       | Some names => included false names
       | None => match form_of "include-ci" (snd x) with Some names => included true names | None => perform (fst x) (snd x) st end
       end).
    cbn [Include.evaluate] in H |- *. cbv zeta in *.
    destruct (form_of "include" (snd x)) as [names|]; [|destruct (form_of "include-ci" (snd x)) as [names|]; [|reflexivity]];
      (destruct (include fs _ (fst x) names [] (paths st)) as [[ds|why] ps]; [|reflexivity]);
      apply each_more; assumption.
  Qed.
  Lemma each_evaluate_more n : forall xs st, snd (each (evaluate n) xs st) <> Some Fuel -> each (evaluate (S n)) xs st = each (evaluate n) xs st.
  Proof. apply each_more. apply evaluate_more. Qed.

  Definition fuel_left (r : list datum * state W * option failure) : Prop := snd r <> Some Fuel.
  Lemma each_declaration_more (r1 r2 : context * datum -> list datum -> state W -> list datum * state W * option failure) :
    (forall x es st, fuel_left (r1 x es st) -> r2 x es st = r1 x es st) ->
    forall xs es st, fuel_left (each_declaration r1 xs es st) -> each_declaration r2 xs es st = each_declaration r1 xs es st.
  Proof.
    intros H. induction xs as [|x xs IH]; intros es st; simpl; [reflexivity|].
    specialize (H x es st). destruct (r1 x es st) as [[es1 st1] [why|]]; unfold fuel_left in *; simpl in H; intros N.
    - rewrite H by assumption. reflexivity.
    - rewrite H by discriminate. apply IH. assumption.
  Qed.
  Lemma declare_S n x es st : declare (S n) x es st =
    match form_of "export" (snd x) with
    | Some specs => (front specs ++ es, st, None)
    | None =>
    match form_of "begin" (snd x) with
    | Some body =>
      match elements body with
      | Some xs => let '(st, e) := each (evaluate n) (map (pair (fst x)) xs) st in (es, st, e)
      | None => (es, st, Some Undefined)
      end
    | None =>
    match form_of "include-library-declarations" (snd x) with
    | Some names =>
      match include fs false (fst x) names [] (paths st) with
      | (Done ds, ps) => each_declaration (declare n) ds es (State ps (world st))
      | (Fails why, ps) => (es, State ps (world st), Some why)
      end
    | None =>
    match form_of "cond-expand" (snd x) with
    | Some cs =>
      match clauses st cs with
      | Ok body => match elements body with
                   | Some xs => each_declaration (declare n) (map (pair (fst x)) xs) es st
                   | None => (es, st, Some Undefined)
                   end
      | Raise => (es, st, Some Failed)
      | Crash => (es, st, Some Undefined)
      end
    | None => let '(st, e) := evaluate n x st in (es, st, e)
    end end end end.
  Proof. reflexivity. Qed.
  Lemma declare_more n : forall x es st, fuel_left (declare n x es st) -> declare (S n) x es st = declare n x es st.
  Proof.
    induction n as [|n IH]; intros x es st H; [unfold fuel_left in H; simpl in H; congruence|].
    rewrite (declare_S (S n)). rewrite declare_S in H |- *.
    destruct (form_of "export" (snd x)); [reflexivity|].
    destruct (form_of "begin" (snd x)) as [body|].
    { destruct (elements body) as [xs|]; [|reflexivity].
      destruct (each (evaluate n) (map (pair (fst x)) xs) st) as [st1 e] eqn:R.
      rewrite each_evaluate_more by (rewrite R; exact H). rewrite R. reflexivity. }
    destruct (form_of "include-library-declarations" (snd x)) as [names|].
    { destruct (include fs false (fst x) names [] (paths st)) as [[ds|why] ps]; [|reflexivity].
      apply each_declaration_more; assumption. }
    destruct (form_of "cond-expand" (snd x)) as [cs|].
    { destruct (clauses st cs) as [body| |]; try reflexivity. destruct (elements body) as [xs|]; [|reflexivity].
      apply each_declaration_more; assumption. }
    destruct (evaluate n x st) as [st1 e] eqn:R.
    rewrite evaluate_more by (rewrite R; exact H). rewrite R. reflexivity.
  Qed.

  (** *** Declarations *)
  Lemma each_declaration_app run : forall xs ys es (st : state W),
    each_declaration run (xs ++ ys) es st =
    match each_declaration run xs es st with
    | (es, st, None) => each_declaration run ys es st
    | (es, st, Some why) => (es, st, Some why)
    end.
  Proof.
    induction xs as [|x xs IH]; intros ys es st; simpl; [reflexivity|].
    destruct (run x es st) as [[es1 st1] [why|]]; [reflexivity|]. apply IH.
  Qed.
  Lemma splice n c (x : datum) (inner : list (context * datum)) rest es st st0 :
    declare (S n) (c, x) es st = each_declaration (declare n) inner es st0 ->
    fuel_left (each_declaration (declare n) (inner ++ rest) es st0) ->
    each_declaration (declare (S n)) ((c, x) :: rest) es st = each_declaration (declare n) (inner ++ rest) es st0.
  Proof.
    intros H F. rewrite each_declaration_app in F |- *. cbn [each_declaration]. rewrite H.
    destruct (each_declaration (declare n) inner es st0) as [[es1 st1] [why|]]; [reflexivity|].
    apply each_declaration_more; [intros; apply declare_more; assumption|assumption].
  Qed.
  Lemma elements_list xs : elements (list_datum xs) = Some xs.
  Proof. induction xs as [|x xs IH]; simpl; [reflexivity|]. rewrite IH. reflexivity. Qed.
  Lemma front_list xs : front (list_datum xs) = xs.
  Proof. induction xs as [|x xs IH]; simpl; [reflexivity|]. rewrite IH. reflexivity. Qed.
  Lemma form_of_form k k' xs : form_of k (form k' xs) = if same_name (codes k') (codes k) then Some (list_datum xs) else None.
  Proof. reflexivity. Qed.
  Lemma form_of_some k x rest : form_of k x = Some rest -> x = Pair (Sym (codes k)) rest.
  Proof.
    destruct x; try discriminate. destruct x1; try discriminate. simpl. unfold same_name.
    destruct (list_eq_dec Z.eq_dec name (codes k)) as [->|]; [|discriminate]. intros H; inversion H; reflexivity.
  Qed.
  Lemma declare_one n c d es st : well_formed d ->
    declare (S n) (c, written d) es st =
    let '(st, e) := each (evaluate n) (map (pair c) (run_by d)) st in (specs_of d ++ es, st, e).
  Proof.
    destruct d as [specs|body|x]; intros Wf; rewrite declare_S; cbn [written fst snd specs_of run_by].
    - rewrite form_of_form. change (same_name (codes "export") (codes "export")) with true. cbv iota. rewrite front_list. reflexivity.
    - rewrite !form_of_form. change (same_name (codes "begin") (codes "export")) with false.
      change (same_name (codes "begin") (codes "begin")) with true. cbv iota. rewrite elements_list. reflexivity.
    - assert (E : forall k, (k = "export" \/ k = "begin" \/ k = "include-library-declarations" \/ k = "cond-expand")%string -> form_of k x = None).
      { intros k K. destruct (form_of k x) as [rest|] eqn:F; [|reflexivity]. apply form_of_some in F.
        destruct (Wf rest) as (W1 & W2 & W3 & W4). destruct K as [-> | [-> | [-> | ->]]]; contradiction. }
      rewrite !E by tauto. cbn [map each]. destruct (evaluate n (c, x) st) as [st1 [why|]]; reflexivity.
  Qed.
  Lemma each_app run : forall xs ys (st : state W),
    each run (xs ++ ys) st = match each run xs st with (st, None) => each run ys st | (st, Some why) => (st, Some why) end.
  Proof.
    induction xs as [|x xs IH]; intros ys st; simpl; [reflexivity|].
    destruct (run x st) as [st1 [why|]]; [reflexivity|]. apply IH.
  Qed.
  Lemma flat n c : forall ds es st, Forall well_formed ds ->
    exists done, (exists later, ds = done ++ later) /\
    let '(st', e) := each (evaluate n) (map (pair c) (flat_map run_by ds)) st in
    each_declaration (declare (S n)) (map (fun d => (c, written d)) ds) es st = (concat (rev (map specs_of done)) ++ es, st', e) /\
    (e = None -> done = ds).
  Proof.
    induction ds as [|d ds IH]; intros es st Wf.
    - exists []. split; [exists []; reflexivity|]. simpl. auto.
    - inversion Wf; subst. cbn [map each_declaration flat_map]. rewrite declare_one by assumption.
      rewrite map_app, each_app. destruct (each (evaluate n) (map (pair c) (run_by d)) st) as [st1 [why|]] eqn:R.
      + exists [d]. split; [exists ds; reflexivity|]. simpl. rewrite app_nil_r. split; [reflexivity|discriminate].
      + destruct (IH (specs_of d ++ es) st1 H2) as (done & [later ->] & B).
        destruct (each (evaluate n) (map (pair c) (flat_map run_by (done ++ later))) st1) as [st' e].
        destruct B as [B1 B2]. exists (d :: done). split; [exists later; reflexivity|].
        rewrite B1. split.
        * simpl. rewrite concat_app. simpl. rewrite app_nil_r, app_assoc. reflexivity.
        * intros ->. f_equal. apply B2. reflexivity.
  Qed.
End Fuel.
