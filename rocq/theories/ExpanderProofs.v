(** Proofs about the expander (Expander.v) against its specification (ExpanderSpec.v).
    The expanded form of a program is described by [settled]: expanding it again gives the same form,
    and the generator makes the code of the specification. *)
From Coq Require Import List Bool Arith Lia.
From Verif Require Import Expander ExpanderSpec.
Import ListNotations.

(** ** The specification has functions of its own for what the model has too *)
Lemma identical_same x y : identical x y = same x y.
Proof. reflexivity. Qed.
Lemma bound_assq {A} s (l : list (nat * A)) : bound s l = assq s l.
Proof. reflexivity. Qed.
Lemma required_len f : required f = len f.
Proof. reflexivity. Qed.
Lemma has_rest_improper f : has_rest f = improper f.
Proof. reflexivity. Qed.
Lemma variables_map_car f : variables_of f = map_car f.
Proof. induction f as [| | |[] _ d IH| |]; cbn; rewrite ?IH; reflexivity. Qed.
Lemma write_out_instance g' tp : forall r n, write_out g' tp r n = instance ([], g') tp r n.
Proof.
  induction tp as [x|s|k| |a IHa d IHd]; intros r n; cbn [write_out instance]; try reflexivity.
  rewrite IHa. destruct (instance ([], g') a r n) as [[y r1] n1]. rewrite IHd. reflexivity.
Qed.

(** ** Results for all large amounts of fuel *)
Definition runs {T} (f : nat -> outcome T) (r : T) : Prop := exists k, forall fuel, k <= fuel -> f fuel = Ok r.
Lemma runs_step {T} (f f' : nat -> outcome T) r : (forall fuel, f' (S fuel) = f fuel) -> runs f r -> runs f' r.
Proof. intros E (k & H). exists (S k). intros [|fuel] L; [lia|]. rewrite E. apply H. lia. Qed.
Lemma runs_same {T} (f f' : nat -> outcome T) r : (forall fuel, f' fuel = f fuel) -> runs f r -> runs f' r.
Proof. intros E (k & H). exists k. intros fuel L. rewrite E. apply H, L. Qed.
Lemma runs_bind {S T} (f : nat -> outcome S) (h : nat -> S -> outcome T) x r : runs f x -> runs (fun fuel => h fuel x) r -> runs (fun fuel => bind (f fuel) (h fuel)) r.
Proof. intros (k1 & H1) (k2 & H2). exists (k1 + k2). intros fuel L. rewrite H1 by lia. cbn. apply H2. lia. Qed.
Lemma runs_ret {T} (r : T) : runs (fun _ => Ok r) r.
Proof. exists 0. reflexivity. Qed.

Lemma same_sym x y : same x y = same y x.
Proof. destruct x, y; cbn; try reflexivity; apply Nat.eqb_sym. Qed.
Lemma same_refl x : is_id x = true -> same x x = true.
Proof. destruct x; try discriminate; intros _; apply Nat.eqb_refl. Qed.
Lemma same_scope_refl bv : same_scope bv bv = true.
Proof. destruct bv as [|[i f] bv]; [reflexivity|apply Nat.eqb_refl]. Qed.

(** ** Where identifiers are found *)
Definition ident_at (p : option (nat * nat * bool)) : ident :=
  match p with Some (i, j, true) => Variadic i j | Some (i, j, false) => Relative i j | None => Unknown end.
Definition plain (f : form) : Prop := closures (fun _ => True) f.
Lemma closures_mono (P Q : form -> Prop) x : (forall c, P c -> Q c) -> closures P x -> closures Q x.
Proof. intros H. induction x; cbn; auto. intros [? ?]. auto. Qed.
Lemma find_formals_spot v f : plain f -> forall i j, find_formals v f i j = ident_at (match spot v f j with Some (k, r) => Some (i, k, r) | None => None end).
Proof.
  induction f as [|k|s|a IHa d IHd|id E g' fr IHfr f IHf|key IHk t E g']; intros P i j; cbn [find_formals spot is_id andb]; try change identical with same; try reflexivity.
  - destruct (same (Sym s) v); reflexivity.
  - destruct P as [Pa Pd]. destruct a; try (destruct (same _ _); [reflexivity|apply IHd, Pd]). destruct Pa.
  - destruct (same _ v); reflexivity.
Qed.
Lemma find_bound_place v bv : Forall (fun f => plain (snd f)) bv -> forall i, find_bound v bv i = ident_at (place v (map snd bv) i).
Proof.
  induction 1 as [|[m f] bv P H IH]; intros i; [reflexivity|]. cbn [find_bound map snd place]. rewrite (find_formals_spot v f P i 0).
  destruct (spot v f 0) as [[j [|]]|]; try reflexivity. apply IH.
Qed.
Lemma find_bound_ids v bv bv' i : map snd bv = map snd bv' -> find_bound v bv i = find_bound v bv' i.
Proof.
  revert bv' i. induction bv as [|[m f] bv IH]; intros [|[m' f'] bv'] i E; try discriminate E; [reflexivity|].
  cbn in E. injection E as -> E. cbn [find_bound]. rewrite (IH bv' (S i) E). reflexivity.
Qed.
Lemma pad_ids E bv bv' : map snd bv = map snd bv' -> pad E bv = pad E bv'.
Proof. intros H. unfold pad. rewrite <- (map_length snd bv), H, map_length. reflexivity. Qed.
Lemma pad_self bv bv' : map snd bv = map snd bv' -> pad bv bv' = bv.
Proof. intros H. unfold pad. rewrite <- (map_length snd bv), H, map_length, Nat.sub_diag. reflexivity. Qed.
Lemma find_bound_pad v bv i : find_bound v (pad [] bv) i = Unknown.
Proof. unfold pad. rewrite app_nil_r. revert i. induction (length bv - length (@nil (nat * form))) as [|k IH]; intros i; cbn; [reflexivity|apply IH]. Qed.
Lemma place_shift v env : forall i, place v env i = match place v env 0 with Some (a, j, r) => Some (a + i, j, r) | None => None end.
Proof.
  induction env as [|f env IH]; intros i; cbn [place]; [reflexivity|]. destruct (spot v f 0) as [[j r]|]; [reflexivity|].
  rewrite (IH (S i)), (IH 1). destruct (place v env 0) as [[[a j] r]|]; [|reflexivity]. do 3 f_equal. lia.
Qed.
Lemma spot_memq v f j : memq v f = true -> spot v f j <> None.
Proof.
  revert j. induction f; intros j; cbn [memq spot]; try change identical with same; try discriminate. rewrite (same_sym v). destruct (same f1 v); [discriminate|]. apply IHf2.
Qed.
Lemma place_memq v env : existsb (memq v) env = true -> forall i, place v env i <> None.
Proof.
  induction env as [|f env IH]; cbn [existsb place]; [discriminate|]. intros H i. destruct (memq v f) eqn:M.
  - pose proof (spot_memq v f 0 M). destruct (spot v f 0) as [[j r]|]; congruence.
  - destruct (spot v f 0) as [[j r]|]; [discriminate|]. apply IH, H.
Qed.
Lemma spot_names v f j : spot v f j <> None -> exists w, In w (formal_names f) /\ same w v = true.
Proof.
  revert j. induction f as [|k|s|a IHa d IHd|id E g' fr IHfr f IHf|key IHk t E g']; intros j; cbn [spot formal_names]; try change identical with same; try (intros H; exfalso; apply H; reflexivity).
  - destruct (same (Sym s) v) eqn:E; [|congruence]. exists (Sym s). split; [left; reflexivity|exact E].
  - destruct (same a v) eqn:E; intros H; [exists a; split; [left; reflexivity|exact E]|]. destruct (IHd _ H) as (w & I & S). exists w. split; [right; exact I|exact S].
  - destruct (same _ v) eqn:E'; [|congruence]. eexists. split; [left; reflexivity|exact E'].
Qed.
Lemma spot_shift v f : forall j, spot v f j = None <-> spot v f 0 = None.
Proof.
  assert (H : forall j j', spot v f j = None -> spot v f j' = None); [|intros j; split; apply H].
  induction f; cbn [spot]; try change identical with same; intros j j'; try (destruct (same _ v); congruence). destruct (same f1 v); [discriminate|]. apply IHf2.
Qed.

(** ** Aliases.  T tells what the aliases are: their environment and their symbol; the identities al belong to
    alpha conversion *)
Definition table := nat -> nat * nat.
Definition listed (T : table) (n : nat) (c : form) : Prop := exists id g' s, c = Clo id [] g' Nil (Sym s) /\ id < n /\ T id = (g', s).
Definition mine (T : table) (n : nat) (al : list nat) (c : form) : Prop := listed T n c /\ ~ In (id_of c) al.
Definition obeys (T : table) (n : nat) (al : list nat) : form -> Prop := closures (mine T n al).
Definition agree (n : nat) (T T' : table) : Prop := forall id, id < n -> T' id = T id.
Lemma obeys_below T n al x : obeys T n al x -> below n x.
Proof. apply closures_mono. intros c [(id & g' & s & -> & L & _) _]. split; [exact I|exact L]. Qed.
Lemma listed_mono T T' n n' c : n <= n' -> agree n T T' -> listed T n c -> listed T' n' c.
Proof. intros L A (id & g' & s & -> & Li & Ti). exists id, g', s. repeat split; [lia|rewrite A by exact Li; exact Ti]. Qed.
Lemma obeys_mono T T' n n' al al' x : n <= n' -> agree n T T' -> (forall id, In id al' -> In id al \/ n <= id) -> obeys T n al x -> obeys T' n' al' x.
Proof.
  intros L A Ha. apply closures_mono. intros c [Lc Na]. split; [apply (listed_mono T T' n n' c L A Lc)|].
  destruct Lc as (id & g' & s & -> & Li & Ti). cbn in *. intros H. destruct (Ha id H); [contradiction|lia].
Qed.
Lemma same_listed T n n' c c' : listed T n c -> listed T n' c' -> same c c' = true -> c = c'.
Proof.
  intros (id & g' & s & -> & _ & T1) (id' & g'' & s' & -> & _ & T2) E. apply Nat.eqb_eq in E. subst id'. congruence.
Qed.
Lemma closures_spot_ids v f n j : closures (fun c => id_of c < n) f -> is_id v = true -> (match v with Clo id _ _ _ _ => n <= id | _ => False end) -> spot v f j = None.
Proof.
  intros H _ Hv. destruct v; try contradiction. revert j. induction f; intros j; cbn [spot same identical]; cbn in H; try reflexivity.
  - destruct H as [H1 H2]. rewrite IHf2 by exact H2. destruct f1; cbn [identical]; try reflexivity. cbn in H1. destruct (id0 =? id) eqn:Eq; [apply Nat.eqb_eq in Eq; lia|reflexivity].
  - destruct (id0 =? id) eqn:Eq; [apply Nat.eqb_eq in Eq; lia|reflexivity].
Qed.

Scheme means_ind' := Minimality for means Sort Prop
  with all_mean_ind' := Minimality for all_mean Sort Prop
  with specs_mean_ind' := Minimality for specs_mean Sort Prop
  with body_means_ind' := Minimality for body_means Sort Prop
  with items_mean_ind' := Minimality for items_mean Sort Prop
  with item_means_ind' := Minimality for item_means Sort Prop
  with definitions_mean_ind' := Minimality for definitions_mean Sort Prop.
Combined Scheme means_mutind from means_ind', all_mean_ind', specs_mean_ind', body_means_ind', items_mean_ind', item_means_ind', definitions_mean_ind'.

Section Proofs.
Variable second : nat -> list (nat * nat).
Variable content : nat -> binding.
Variable macro : nat -> form -> option template.
Variable spec_value : form -> option nat.
Variable g : nat.
Notation transform := (fun t => er_transform (macro t)).
Notation identify := (identify second).
Notation closure_identify := (closure_identify second).
Notation keyword_of := (keyword_of content).
Notation expand := (expand second content transform spec_value).
Notation expand_closure := (expand_closure second content transform spec_value).
Notation expand_call := (expand_call second content transform spec_value).
Notation expand_syntax := (expand_syntax second content transform spec_value).
Notation operand := (operand second content transform spec_value).
Notation binding_specs := (binding_specs second content transform spec_value).
Notation body := (body second content transform spec_value).
Notation sweep := (sweep second content transform spec_value).
Notation variable := (variable second).
Notation generate := (generate second content).
Notation cell := (cell second g).
Notation kind := (kind second content g).
Notation keyword_content := (keyword_content second content g).
Notation denotes := (denotes second g).
Notation syntax := (syntax second content g).
Notation not_macro := (not_macro second content g).
Notation careful_variable := (careful_variable second content g).
Notation means := (means second content macro g true).
Notation all_mean := (all_mean second content macro g true).
Notation specs_mean := (specs_mean second content macro g true).
Notation body_means := (body_means second content macro g true).
Notation items_mean := (items_mean second content macro g true).
Notation item_means := (item_means second content macro g true).
Notation program_means := (program_means second content macro g true).

Lemma identify_ids v : forall g bv bv', map snd bv = map snd bv' -> identify v g bv = identify v g bv'.
Proof.
  induction v as [| | |a IHa d IHd|id E g' fr IHfr f IHf|key IHk t E g']; intros g0 bv bv' H; cbn [Expander.identify]; rewrite (find_bound_ids _ bv bv' 0 H); try reflexivity.
  rewrite (pad_ids E bv bv' H), (IHf g' bv bv' H). reflexivity.
Qed.
Lemma closure_identify_ids v bv bv' : map snd bv = map snd bv' -> closure_identify v bv = closure_identify v bv'.
Proof. intros H. destruct v; try reflexivity. cbn [Expander.closure_identify]. rewrite (pad_ids E bv bv' H), (identify_ids v2 _ bv bv' H). reflexivity. Qed.

(** ** The invariant of the expander: the frames fs have the variables of env, some of them renamed by the
    dictionary *)
Record good (env fs : list form) (dict : list (nat * form)) (n : nat) (al : list nat) (T : table) : Prop := {
  g_sym : forall s, match assq s dict with
                    | Some x => (exists id, x = Clo id [] g Nil (Sym s) /\ In id al) /\ place (Sym s) env 0 <> None /\ place x fs 0 = place (Sym s) env 0 /\
                                keyword_content (Sym s) = None /\ existsb (memq (Sym s)) env = true
                    | None => place (Sym s) fs 0 = place (Sym s) env 0
                    end;
  g_memq : forall s, existsb (memq (Sym s)) fs = existsb (memq (Sym s)) env;
  g_shadow : forall s, shadowing s env = match assq s dict with Some _ => true | None => false end;
  g_alias : forall c, mine T n al c -> place c fs 0 = place c env 0;
  g_kw : forall c, mine T n al c -> place c env 0 <> None -> keyword_content c = None;
  g_env : Forall (obeys T n al) env;
  g_fs : Forall (closures (listed T n)) fs;
  g_al : forall id, In id al -> id < n }.
Lemma place_fresh fs n id E g' fr f i : Forall (closures (fun c => id_of c < n)) fs -> n <= id -> place (Clo id E g' fr f) fs i = None.
Proof.
  intros H L. revert i. induction H as [|x fs Hx H IH]; intros i; [reflexivity|]. cbn [place].
  rewrite (closures_spot_ids _ x n 0 Hx); [apply IH|reflexivity|exact L].
Qed.
Lemma listed_id T n c : listed T n c -> id_of c < n.
Proof. intros (id & g' & s & -> & L & _). exact L. Qed.
Lemma fs_ids T n fs : Forall (closures (listed T n)) fs -> Forall (closures (fun c => id_of c < n)) fs.
Proof. intros H. eapply Forall_impl; [|exact H]. intros f. apply closures_mono, listed_id. Qed.
Lemma env_ids T n al fs : Forall (obeys T n al) fs -> Forall (closures (fun c => id_of c < n)) fs.
Proof. intros H. eapply Forall_impl; [|exact H]. intros f. apply closures_mono. intros c [Hc _]. exact (listed_id T n c Hc). Qed.
Lemma good_mono env fs dict n al T n' T' : n <= n' -> agree n T T' -> good env fs dict n al T -> good env fs dict n' al T'.
Proof.
  intros L A G. assert (Old : forall c, mine T' n' al c -> mine T n al c \/ (exists id E g' fr f, c = Clo id E g' fr f /\ n <= id)).
  { intros c [(id & g' & s & -> & Li & Ti) Na]. destruct (le_lt_dec n id) as [Le|Lt]; [right; repeat eexists; exact Le|].
    left. split; [|exact Na]. exists id, g', s. repeat split; [exact Lt|]. rewrite <- A by exact Lt. exact Ti. }
  constructor; try apply G.
  - intros c M. destruct (Old c M) as [M'|(id & E & g' & fr & f & -> & Li)]; [apply G, M'|].
    rewrite (place_fresh fs n id) by (auto; eapply fs_ids, G). rewrite (place_fresh env n id) by (auto; eapply env_ids, G). reflexivity.
  - intros c M P. destruct (Old c M) as [M'|(id & E & g' & fr & f & -> & Li)]; [apply (g_kw _ _ _ _ _ _ G c M' P)|].
    rewrite (place_fresh env n id) in P by (auto; eapply env_ids, G). congruence.
  - eapply Forall_impl; [|apply G]. intros f. apply obeys_mono; auto.
  - eapply Forall_impl; [|apply G]. intros f. apply closures_mono. intros c. apply listed_mono; auto.
  - intros id H. pose proof (g_al _ _ _ _ _ _ G id H). lia.
Qed.
Lemma listed_plain T n fs : Forall (closures (listed T n)) fs -> forall (bv : scope), map snd bv = fs -> Forall (fun f => plain (snd f)) bv.
Proof.
  intros H bv E. subst fs. rewrite Forall_map in H. eapply Forall_impl; [|exact H]. intros f. apply closures_mono. auto.
Qed.
Lemma found env fs dict n al T bv v i : good env fs dict n al T -> map snd (bv : scope) = fs -> find_bound v bv i = ident_at (place v fs i).
Proof. intros G E. rewrite (find_bound_place v bv (listed_plain T n fs (g_fs _ _ _ _ _ _ G) bv E)), E. reflexivity. Qed.

(** ** Renaming of formals *)
Definition A1 (dict : list (nat * form)) : list alpha := [Alpha [] g Nil dict].
Definition renames (fs : list form) (s : nat) : bool := existsb (memq (Sym s)) fs.
Lemma renames_scope (bv : scope) s : existsb (fun f => memq (Sym s) (snd f)) bv = renames (map snd bv) s.
Proof. unfold renames. induction bv as [|f bv IH]; cbn; [reflexivity|]. rewrite IH. reflexivity. Qed.
Definition update (T : table) (n : nat) (x : nat * nat) : table := fun id => if id =? n then x else T id.
Lemma agree_update T n x : agree n T (update T n x).
Proof. intros id L. unfold update. destruct (id =? n) eqn:E; [apply Nat.eqb_eq in E; lia|reflexivity]. Qed.
Lemma agree_trans n n' T T' T'' : n <= n' -> agree n T T' -> agree n' T' T'' -> agree n T T''.
Proof. intros L A B id Li. rewrite B by lia. apply A, Li. Qed.

Record converted (fs : list form) (T : table) (n : nat) (dict : list (nat * form)) (formals formals' : form) (dict' : list (nat * form)) (n' : nat) (new : list nat) (T' : table) : Prop := {
  c_le : n <= n';
  c_agree : agree n T T';
  c_new : forall id, In id new -> n <= id < n';
  c_renamed : forall s j, renames fs s = true -> memq (Sym s) formals' = false /\ spot (Sym s) formals' j = None /\
    match spot (Sym s) formals j with
    | Some p => exists id, In id new /\ assq s dict' = Some (Clo id [] g Nil (Sym s)) /\ spot (Clo id [] g Nil (Sym s)) formals' j = Some p
    | None => assq s dict' = assq s dict
    end;
  c_kept : forall s j, renames fs s = false -> memq (Sym s) formals' = memq (Sym s) formals /\ spot (Sym s) formals' j = spot (Sym s) formals j /\ assq s dict' = assq s dict;
  c_alias : forall id E g' fr f j, id < n -> spot (Clo id E g' fr f) formals' j = spot (Clo id E g' fr f) formals j;
  c_listed : closures (listed T' n') formals';
  c_ids : closures (fun c => id_of c < n \/ In (id_of c) new) formals';
  c_len : len formals' = len formals;
  c_improper : improper formals' = improper formals;
  c_same : (forall v, In v (formal_names formals) -> local_free v fs) -> formals' = formals /\ dict' = dict /\ n' = n }.

Lemma convert_formals_converted bv fs formals : map snd bv = fs -> formals_ok formals -> forall dict n T, closures (listed T n) formals ->
  exists formals' dict' n' new T', convert_formals formals bv (A1 dict) n = (formals', A1 dict', n') /\ converted fs T n dict formals formals' dict' n' new T'.
Proof.
  intros E [Hid Hdiff]. induction formals as [|k|s|a IHa d IHd|id E' g' fr IHfr f IHf|key IHk t E' g']; intros dict n T Hl.
  - exists Nil, dict, n, [], T. split; [reflexivity|]. constructor; unfold agree; cbn; intros; auto; try contradiction.
  - exfalso. apply Forall_inv in Hid. discriminate Hid.
  - cbn [convert_formals]. rewrite renames_scope, E. destruct (renames fs s) eqn:R.
    + exists (Clo n [] g Nil (Sym s)), ((s, Clo n [] g Nil (Sym s)) :: dict), (S n), [n], (update T n (g, s)). split; [reflexivity|]. constructor; auto.
      * apply agree_update.
      * intros id [<-|[]]. lia.
      * intros s' j R'. cbn [memq spot same identical]. repeat split; auto. destruct (s =? s') eqn:Es.
        -- apply Nat.eqb_eq in Es. subst s'. exists n. repeat split; [left; reflexivity|cbn; rewrite Nat.eqb_refl; reflexivity|rewrite Nat.eqb_refl; reflexivity].
        -- cbn [assq]. rewrite (Nat.eqb_sym s' s), Es. reflexivity.
      * intros s' j R'. cbn [memq spot same identical]. destruct (s =? s') eqn:Es; [apply Nat.eqb_eq in Es; subst s'; congruence|]. cbn [assq]. rewrite (Nat.eqb_sym s' s), Es. auto.
      * intros id E' g' fr f j L. cbn [spot same identical]. destruct (n =? id) eqn:En; [apply Nat.eqb_eq in En; lia|reflexivity].
      * cbn. exists n, g, s. repeat split; [lia|]. unfold update. rewrite Nat.eqb_refl. reflexivity.
      * right. left. reflexivity.
      * intros H. specialize (H (Sym s) (or_introl eq_refl)). cbn in H. unfold renames in R. congruence.
    + exists (Sym s), dict, n, [], T. split; [reflexivity|]. constructor; unfold agree; try (cbn; intros; auto; contradiction).
      intros s' j R'. cbn [memq spot same identical]. destruct (s =? s') eqn:Es; auto; apply Nat.eqb_eq in Es; subst s'; congruence.
  - cbn [convert_formals]. inversion Hid as [|? ? Ia Id]; subst. destruct Hdiff as [Da Dd]. destruct Hl as [La Ld].
    destruct a as [|k|s|a1 a2|id E' g' fr f|key t E' g']; try discriminate Ia.
    + rewrite renames_scope. set (fs := map snd bv) in *. destruct (renames fs s) eqn:R.
      * cbn [make_closure A1 a_scope a_globals a_free a_dict]. set (c0 := Clo n [] g Nil (Sym s)).
        destruct (IHd Id Dd ((s, c0) :: dict) (S n) (update T n (g, s))) as (d' & dict' & n' & new & T' & Ec & C).
        { eapply closures_mono; [|exact Ld]. intros c. apply listed_mono; [lia|apply agree_update]. }
        unfold A1 in Ec. rewrite Ec. exists (Pair c0 d'), dict', n', (n :: new), T'. split; [reflexivity|].
        pose proof (c_le _ _ _ _ _ _ _ _ _ _ C) as Le.
        constructor.
        -- lia.
        -- eapply agree_trans; [|apply agree_update|apply C]. lia.
        -- intros id [<-|H]; [lia|]. pose proof (c_new _ _ _ _ _ _ _ _ _ _ C id H). lia.
        -- intros s' j R'. destruct (c_renamed _ _ _ _ _ _ _ _ _ _ C s' (S j) R') as (M & S1 & S2). cbn [memq spot same identical]. repeat split; auto.
           destruct (s =? s') eqn:Es.
           ++ apply Nat.eqb_eq in Es. subst s'. exists n. repeat split; [left; reflexivity| |unfold c0; cbn [spot same identical]; rewrite Nat.eqb_refl; reflexivity].
              assert (Sn : spot (Sym s) d (S j) = None) by (apply spot_shift; exact Da). rewrite Sn in S2. rewrite S2. cbn. rewrite Nat.eqb_refl. reflexivity.
           ++ destruct (spot (Sym s') d (S j)) as [p|].
              ** destruct S2 as (id & Hi & Ha & Hs). exists id. repeat split; [right; exact Hi|exact Ha|]. unfold c0. cbn [spot same identical]. pose proof (c_new _ _ _ _ _ _ _ _ _ _ C id Hi).
                 destruct (n =? id) eqn:En; [apply Nat.eqb_eq in En; lia|exact Hs].
              ** rewrite S2. cbn. rewrite (Nat.eqb_sym s' s), Es. reflexivity.
        -- intros s' j R'. destruct (c_kept _ _ _ _ _ _ _ _ _ _ C s' (S j) R') as (M & S1 & S2). unfold c0. cbn [memq spot same identical].
           destruct (s =? s') eqn:Es; [apply Nat.eqb_eq in Es; subst s'; congruence|]. rewrite (Nat.eqb_sym s' s), Es. repeat split; auto. rewrite S2. cbn. rewrite (Nat.eqb_sym s' s), Es. reflexivity.
        -- intros id E' g' fr f j L. unfold c0. cbn [spot same identical]. destruct (n =? id) eqn:En; [apply Nat.eqb_eq in En; lia|]. apply (c_alias _ _ _ _ _ _ _ _ _ _ C). lia.
        -- split; [|apply C]. exists n, g, s. repeat split; [lia|]. rewrite (c_agree _ _ _ _ _ _ _ _ _ _ C) by lia. unfold update. rewrite Nat.eqb_refl. reflexivity.
        -- split; [right; left; reflexivity|]. eapply closures_mono; [|apply (c_ids _ _ _ _ _ _ _ _ _ _ C)]. intros c [Hc|Hc]; [|right; right; exact Hc].
           destruct (Nat.eq_dec (id_of c) n) as [->|Ne]; [right; left; reflexivity|left; lia].
        -- cbn. f_equal. apply C.
        -- cbn. apply C.
        -- intros H. specialize (H (Sym s) (or_introl eq_refl)). cbn in H. unfold renames in R. congruence.
      * destruct (IHd Id Dd dict n T Ld) as (d' & dict' & n' & new & T' & Ec & C).
        unfold A1 in *. rewrite Ec. exists (Pair (Sym s) d'), dict', n', new, T'. split; [reflexivity|].
        constructor; try apply C.
        -- intros s' j R'. destruct (c_renamed _ _ _ _ _ _ _ _ _ _ C s' (S j) R') as (M & S1 & S2). cbn [memq spot same identical].
           destruct (s =? s') eqn:Es; [apply Nat.eqb_eq in Es; subst s'; congruence|]. rewrite (Nat.eqb_sym s' s), Es. repeat split; auto.
        -- intros s' j R'. destruct (c_kept _ _ _ _ _ _ _ _ _ _ C s' (S j) R') as (M & S1 & S2). cbn [memq spot same identical].
           rewrite M, S1. auto.
        -- intros id E' g' fr f j L. cbn [spot same identical]. apply (c_alias _ _ _ _ _ _ _ _ _ _ C). exact L.
        -- split; [exact I|apply C].
        -- split; [exact I|apply C].
        -- cbn. f_equal. apply C.
        -- intros H. destruct (c_same _ _ _ _ _ _ _ _ _ _ C) as (-> & -> & ->); [intros v Hv; apply H; right; exact Hv|auto].
    + set (fs := map snd bv) in *. destruct (IHd Id Dd dict n T Ld) as (d' & dict' & n' & new & T' & Ec & C).
      unfold A1 in *. rewrite Ec. exists (Pair (Clo id E' g' fr f) d'), dict', n', new, T'. split; [reflexivity|].
      pose proof (listed_id _ _ _ La) as Li. cbn in Li.
      constructor; try apply C.
      -- intros s' j R'. destruct (c_renamed _ _ _ _ _ _ _ _ _ _ C s' (S j) R') as (M & S1 & S2). cbn [memq spot same identical]. repeat split; auto.
         destruct (spot (Sym s') d (S j)) as [p|]; [|exact S2]. destruct S2 as (id' & Hi & Ha & Hs). exists id'. repeat split; auto.
         pose proof (c_new _ _ _ _ _ _ _ _ _ _ C id' Hi). destruct (id =? id') eqn:En; [apply Nat.eqb_eq in En; lia|exact Hs].
      -- intros s' j R'. destruct (c_kept _ _ _ _ _ _ _ _ _ _ C s' (S j) R') as (M & S1 & S2). cbn [memq spot same identical]. auto.
      -- intros id' E'' g'' fr' f' j L. cbn [spot same identical]. rewrite (c_alias _ _ _ _ _ _ _ _ _ _ C) by exact L. reflexivity.
      -- split; [|apply C]. eapply listed_mono; [apply C|apply C|exact La].
      -- split; [left; exact Li|apply C].
      -- cbn. f_equal. apply C.
      -- intros H. destruct (c_same _ _ _ _ _ _ _ _ _ _ C) as (-> & -> & ->); [intros v Hv; apply H; right; exact Hv|auto].
  - exists (Clo id E' g' fr f), dict, n, [], T. split; [reflexivity|]. constructor; unfold agree; cbn; intros; auto; try contradiction. left. apply (listed_id _ _ _ Hl).
  - exfalso. exact Hl.
Qed.

Lemma spot_other id E g' fr f x j : closures (fun c => id_of c <> id) x -> spot (Clo id E g' fr f) x j = None.
Proof.
  revert j. induction x as [|k|s|a IHa d IHd|id' E' g'' fr' IHfr x' IHx|key IHk t E' g'']; intros j H; cbn [spot same identical]; try reflexivity.
  - destruct H as [Ha Hd]. rewrite IHd by exact Hd. destruct a; cbn [identical]; try reflexivity. cbn in Ha. apply Nat.eqb_neq in Ha. rewrite Ha. reflexivity.
  - cbn in H. apply Nat.eqb_neq in H. rewrite H. reflexivity.
Qed.
Lemma names_closures ok f v : closures ok f -> In v (formal_names f) -> closures ok v.
Proof.
  induction f as [|k|s|a IHa d IHd|id' E' g'' fr' IHfr x' IHx|key IHk t E' g'']; cbn [formal_names]; intros H I; try (destruct I as [<-|[]]; exact H).
  - destruct I.
  - destruct H as [Ha Hd]. destruct I as [<-|I]; [exact Ha|]. apply IHd; [exact Hd|exact I].
Qed.
Lemma good_formals env fs dict n al T formals formals' dict' n' new T' :
  good env fs dict n al T -> formals_ok formals -> obeys T n al formals -> Forall (careful_variable env) (formal_names formals) ->
  converted fs T n dict formals formals' dict' n' new T' -> good (formals :: env) (formals' :: fs) dict' (S n') (new ++ al) T'.
Proof.
  intros G Ok Ob Cv C. pose proof (c_le _ _ _ _ _ _ _ _ _ _ C) as Le. pose proof (c_agree _ _ _ _ _ _ _ _ _ _ C) as Ag.
  assert (Old : forall c, mine T' (S n') (new ++ al) c -> mine T n al c \/ (exists id E g' fr f, c = Clo id E g' fr f /\ n <= id /\ ~ In id new)).
  { intros c [(id & g' & s & -> & Li & Ti) Na]. cbn in Na. rewrite in_app_iff in Na. destruct (le_lt_dec n id) as [Lg|Lt]; [right; repeat eexists; [exact Lg|tauto]|].
    left. split; [|cbn; tauto]. exists id, g', s. repeat split; [exact Lt|]. rewrite <- Ag by exact Lt. exact Ti. }
  assert (Alpha : forall id E g' fr f j, In id al -> spot (Clo id E g' fr f) formals' j = None).
  { intros id E g' fr f j H. rewrite (c_alias _ _ _ _ _ _ _ _ _ _ C) by apply (g_al _ _ _ _ _ _ G id H). apply spot_other. eapply closures_mono; [|exact Ob]. intros c [_ N] <-. contradiction. }
  constructor.
  - intros s. cbn [place existsb]. destruct (renames fs s) eqn:R.
    + destruct (c_renamed _ _ _ _ _ _ _ _ _ _ C s 0 R) as (M & S1 & S2). destruct (spot (Sym s) formals 0) as [[j r]|] eqn:Sp.
      * destruct S2 as (id & Hi & -> & Hs). rewrite Hs. unfold renames in R. rewrite (g_memq _ _ _ _ _ _ G) in R. rewrite R, orb_true_r.
        repeat split; [exists id; split; [reflexivity|apply in_or_app; left; exact Hi]|discriminate|].
        destruct (spot_names (Sym s) formals 0) as (w & Hw & Sw); [congruence|]. destruct w; try discriminate Sw. apply Nat.eqb_eq in Sw. subst.
        rewrite Forall_forall in Cv. apply (Cv _ Hw), R.
      * rewrite S2. pose proof (g_sym _ _ _ _ _ _ G s) as Gs. destruct (assq s dict) as [x|].
        -- destruct Gs as ((id & -> & Hi) & P & Px & K & Ex). rewrite (Alpha id _ _ _ _ 0 Hi). rewrite Ex, orb_true_r.
           rewrite (place_shift (Sym s) env 1), (place_shift _ fs 1), Px. repeat split; auto; [exists id; split; [reflexivity|apply in_or_app; right; exact Hi]|].
           destruct (place (Sym s) env 0) as [[[? ?] ?]|]; congruence.
        -- rewrite S1. rewrite (place_shift (Sym s) env 1), (place_shift _ fs 1), Gs. reflexivity.
    + destruct (c_kept _ _ _ _ _ _ _ _ _ _ C s 0 R) as (M & S1 & S2). rewrite S2, S1. pose proof (g_sym _ _ _ _ _ _ G s) as Gs. destruct (assq s dict) as [x|].
      * destruct Gs as (_ & _ & _ & _ & Ex). unfold renames in R. rewrite (g_memq _ _ _ _ _ _ G) in R. congruence.
      * destruct (spot (Sym s) formals 0) as [[j r]|]; [reflexivity|]. rewrite (place_shift (Sym s) env 1), (place_shift _ fs 1), Gs. reflexivity.
  - intros s. cbn [existsb]. rewrite <- (g_memq _ _ _ _ _ _ G s). destruct (renames fs s) eqn:R.
    + unfold renames in R. rewrite R, !orb_true_r. reflexivity.
    + destruct (c_kept _ _ _ _ _ _ _ _ _ _ C s 0 R) as (M & _). rewrite M. reflexivity.
  - intros s. cbn [shadowing]. unfold has. rewrite <- (g_memq _ _ _ _ _ _ G s). pose proof (g_sym _ _ _ _ _ _ G s) as Gs. pose proof (g_shadow _ _ _ _ _ _ G s) as Sh.
    change (existsb (memq (Sym s)) fs) with (renames fs s). destruct (renames fs s) eqn:R.
    + destruct (c_renamed _ _ _ _ _ _ _ _ _ _ C s 0 R) as (M & S1 & S2). destruct (spot (Sym s) formals 0) as [[j r]|]; [|rewrite S2; exact Sh].
      destruct S2 as (id & Hi & -> & Hs). reflexivity.
    + destruct (c_kept _ _ _ _ _ _ _ _ _ _ C s 0 R) as (M & S1 & S2). rewrite S2. rewrite Sh. destruct (assq s dict).
      * destruct Gs as (_ & _ & _ & _ & Ex). unfold renames in R. rewrite (g_memq _ _ _ _ _ _ G) in R. congruence.
      * destruct (spot (Sym s) formals 0) as [[j r]|]; reflexivity.
  - intros c M. cbn [place]. destruct (Old c M) as [M'|(id & E & g' & fr & f & -> & Li & Ni)].
    + assert (Sp : spot c formals' 0 = spot c formals 0). { destruct M' as [(id & g' & s & -> & Li & _) _]. apply (c_alias _ _ _ _ _ _ _ _ _ _ C), Li. }
      rewrite Sp. destruct (spot c formals 0) as [[j r]|]; [reflexivity|]. rewrite (place_shift c env 1), (place_shift _ fs 1), (g_alias _ _ _ _ _ _ G c M'). reflexivity.
    + rewrite (spot_other id), (spot_other id).
      * rewrite (place_fresh fs n id), (place_fresh env n id); auto; [eapply env_ids, G|eapply fs_ids, G].
      * eapply closures_mono; [|exact Ob]. intros c [Lc _]. pose proof (listed_id _ _ _ Lc). lia.
      * eapply closures_mono; [|apply (c_ids _ _ _ _ _ _ _ _ _ _ C)]. intros c [Hc|Hc] <-; [lia|contradiction].
  - intros c M P. cbn [place] in P. destruct (Old c M) as [M'|(id & E & g' & fr & f & -> & Li & Ni)].
    + destruct (spot c formals 0) as [[j r]|] eqn:Sp.
      * destruct (spot_names c formals 0) as (w & Hw & Sw); [congruence|]. assert (w = c).
        { pose proof (names_closures _ _ _ Ob Hw) as Mw. destruct M' as [Lc _]. destruct Lc as (id & g' & s & Ec & ? & ?). subst c. destruct w; try discriminate Sw. cbn in Mw.
          destruct Mw as [Lw _]. eapply same_listed; [exact Lw| |exact Sw]. exists id, g', s. auto. }
        subst w. rewrite Forall_forall in Cv. specialize (Cv _ Hw). destruct M' as [(id & g' & s & -> & Li & _) _]. exact Cv.
      * apply (g_kw _ _ _ _ _ _ G c M'). rewrite (place_shift c env 1) in P. destruct (place c env 0); congruence.
    + exfalso. rewrite (spot_other id), (place_fresh env n id) in P; auto; [eapply env_ids, G|]. eapply closures_mono; [|exact Ob]. intros c [Lc _]. pose proof (listed_id _ _ _ Lc). lia.
  - assert (Mono : forall x, obeys T n al x -> obeys T' (S n') (new ++ al) x).
    { intros x. apply obeys_mono; [lia|exact Ag|]. intros id H. apply in_app_or in H. destruct H as [H|H]; [|left; exact H]. right. apply (c_new _ _ _ _ _ _ _ _ _ _ C id H). }
    constructor; [apply Mono, Ob|]. eapply Forall_impl; [|apply G]. exact Mono.
  - constructor; [|eapply Forall_impl; [|apply G]; intros f].
    + eapply closures_mono; [|apply C]. intros c. apply listed_mono; [lia|intros id _; reflexivity].
    + apply closures_mono. intros c. apply listed_mono; [lia|exact Ag].
  - intros id H. apply in_app_or in H. destruct H as [H|H]; [pose proof (c_new _ _ _ _ _ _ _ _ _ _ C id H)|pose proof (g_al _ _ _ _ _ _ G id H)]; lia.
Qed.

(** ** Settled forms *)
Definition at_ (fs : list form) : scope := map (pair 0) fs.
Lemma at_frames fs : map snd (at_ fs) = fs.
Proof. unfold at_. rewrite map_map. cbn. apply map_id. Qed.
Lemma at_of (bv : scope) fs : map snd bv = fs -> map snd bv = map snd (at_ fs).
Proof. intros ->. symmetry. apply at_frames. Qed.
Definition op (fs : list form) (q : form) : ident := match q with Clo _ _ _ _ _ => closure_identify q (at_ fs) | _ => identify q g (at_ fs) end.
Definition fixed (dict : list (nat * form)) (q : form) : Prop := match q with Sym s => assq s dict = None | _ => True end.
(** The keywords in a body are looked up in the scope around it; o is this scope for the scope fs of the body, with
    the variables of its definitions *)
Definition outer (fs o : list form) : Prop := o = fs \/ exists vs, fs = vs :: o /\ Forall (fun v => local_free v o /\ not_macro v) (formal_names vs).
Lemma outer_refl fs : outer fs fs.
Proof. left. reflexivity. Qed.
Definition head (dict : list (nat * form)) (fs : list form) (q : form) (K : keyword) : Prop :=
  is_id q = true /\ fixed dict q /\ keyword_of (op fs q) = K /\ forall o, outer fs o -> keyword_of (identify q g (at_ o)) = K.
Definition is_known (fs : list form) (v : form) : Prop := match v with Clo _ _ _ _ _ => known (identify v g (at_ fs)) = true | _ => True end.
Definition stops (fs : list form) (y : form) : Prop :=
  match y with
  | Pair k _ => is_id k = true -> forall o, outer fs o -> match keyword_of (identify k g (at_ o)) with KSyntax k => spliced k = false | KMacro _ _ _ => False | KNone => True end
  | Clo _ _ _ _ _ => is_known fs y
  | _ => True
  end.
Definition unrenamed (fs : list form) (formals : form) : Prop := forall bv A n, map snd bv = fs -> convert_formals formals bv A n = (formals, A, n).

Inductive settled (dict : list (nat * form)) (fs : list form) : form -> code -> Prop :=
| C_variable v c : head dict fs v KNone -> is_known fs v -> c = variable v g (at_ fs) -> settled dict fs v c
| C_nil : settled dict fs Nil (CConst Nil)
| C_atom k : settled dict fs (Atom k) (CConst (Atom k))
| C_quote q x : head dict fs q (KSyntax k_quote) -> settled dict fs (flist [q; x]) (CConst (quoted x))
| C_if q xs cs : head dict fs q (KSyntax k_if) -> settled_all dict fs xs cs -> settled dict fs (Pair q xs) (CIf cs)
| C_begin q xs cs : head dict fs q (KSyntax k_begin) -> settled_all dict fs xs cs -> settled dict fs (Pair q xs) (CSeq cs)
| C_set q v x cv c : head dict fs q (KSyntax k_set) -> is_id v = true -> settled dict fs v cv -> settled dict fs x c -> settled dict fs (flist [q; v; x]) (CSet cv c)
| C_lambda q formals ys cs : head dict fs q (KSyntax k_lambda) -> unrenamed fs formals -> settled_body dict (formals :: fs) ys cs ->
    settled dict fs (Pair q (Pair formals ys)) (CLambda (len formals) (improper formals) cs)
| C_letrec q specs ys inits cs : head dict fs q (KSyntax k_letrec) -> unrenamed fs (map_car specs) ->
    settled_specs dict (map_car specs :: fs) specs inits -> settled_body dict (map_car specs :: fs) ys cs ->
    settled dict fs (Pair q (Pair specs ys)) (CLetrec inits cs)
| C_call f xs c cs : settled dict fs f c -> settled_all dict fs xs cs -> settled dict fs (Pair f xs) (CCall c cs (CConst Nil))
with settled_all (dict : list (nat * form)) (fs : list form) : form -> list code -> Prop :=
| CA_nil : settled_all dict fs Nil []
| CA_cons x xs c cs : settled dict fs x c -> settled_all dict fs xs cs -> settled_all dict fs (Pair x xs) (c :: cs)
with settled_specs (dict : list (nat * form)) (fs : list form) : form -> list code -> Prop :=
| CS_nil : settled_specs dict fs Nil []
| CS_cons v x specs c cs : settled dict fs x c -> settled_specs dict fs specs cs -> settled_specs dict fs (Pair (flist [v; x]) specs) (c :: cs)
with settled_body (dict : list (nat * form)) (fs : list form) : form -> list code -> Prop :=
| CB_nil : settled_body dict fs Nil []
| CB_cons x xs c cs : settled dict fs x c -> stops fs x -> settled_body dict fs xs cs -> settled_body dict fs (Pair x xs) (c :: cs).
Scheme settled_ind' := Minimality for settled Sort Prop
  with settled_all_ind' := Minimality for settled_all Sort Prop
  with settled_specs_ind' := Minimality for settled_specs Sort Prop
  with settled_body_ind' := Minimality for settled_body Sort Prop.
Combined Scheme settled_mutind from settled_ind', settled_all_ind', settled_specs_ind', settled_body_ind'.

Lemma settled_id dict fs f c : settled dict fs f c -> is_id f = true -> head dict fs f KNone.
Proof. intros H I. inversion H; subst; try discriminate I. assumption. Qed.
Definition smaller (dict dict' : list (nat * form)) : Prop := forall s, assq s dict' = None -> assq s dict = None.
Lemma head_smaller dict dict' fs q K : smaller dict dict' -> head dict' fs q K -> head dict fs q K.
Proof. intros S (H1 & H2 & H3 & H4). repeat split; auto. destruct q; auto. apply S, H2. Qed.
Lemma settled_smaller dict dict' : smaller dict dict' ->
  forall fs,
  (forall x c, settled dict' fs x c -> settled dict fs x c) /\
  (forall x c, settled_all dict' fs x c -> settled_all dict fs x c) /\
  (forall x c, settled_specs dict' fs x c -> settled_specs dict fs x c) /\
  (forall x c, settled_body dict' fs x c -> settled_body dict fs x c).
Proof.
  intros S. apply (settled_mutind dict' (settled dict) (settled_all dict) (settled_specs dict) (settled_body dict)); intros; econstructor; solve [eauto using head_smaller].
Qed.

Lemma expand_head dict fs q d bv n K : map snd bv = fs -> head dict fs q K -> forall fuel,
  expand (S fuel) g (Pair q d) bv (A1 dict) n =
  match K with
  | KMacro t E g' => bind (run_macro transform t (Pair q d) (bv, g) (E, g') n) (fun r => let '(x, n) := r in expand fuel g x bv (A1 dict) n)
  | KSyntax k => expand_syntax fuel k g (Pair q d) bv (A1 dict) n
  | KNone => expand_call fuel g (Pair q d) bv (A1 dict) n
  end.
Proof.
  intros E (I & F & O & _) fuel. cbn [Expander.expand]. rewrite I. unfold op in O.
  assert (Cv : convert q (A1 dict) n = (q, A1 dict, n)).
  { destruct q; try reflexivity. cbn in F |- *. rewrite F. reflexivity. }
  rewrite Cv. destruct q; try discriminate I.
  - rewrite (identify_ids _ g bv (at_ fs) (at_of bv fs E)), O. destruct K; reflexivity.
  - rewrite (closure_identify_ids _ bv (at_ fs) (at_of bv fs E)), O. destruct K; reflexivity.
Qed.
Lemma convert_fixed dict q n : fixed dict q -> convert q (A1 dict) n = (q, A1 dict, n).
Proof. intros F. destruct q; try reflexivity. cbn in F |- *. rewrite F. reflexivity. Qed.
Lemma expand_var dict fs v bv n : map snd bv = fs -> is_id v = true -> fixed dict v -> is_known fs v -> runs (fun fuel => expand fuel g v bv (A1 dict) n) (v, A1 dict, n).
Proof.
  intros E I F K. exists 1. intros [|fuel] L; [lia|]. cbn [Expander.expand]. destruct v; try discriminate I.
  - rewrite (convert_fixed dict _ n F). reflexivity.
  - unfold is_known in K. rewrite (identify_ids _ g bv (at_ fs) (at_of bv fs E)), K. reflexivity.
Qed.
Lemma head_known dict fs q k : head dict fs q (KSyntax k) -> is_known fs q.
Proof. intros (I & _ & _ & H). specialize (H fs (outer_refl fs)). destruct q; try exact Logic.I. unfold is_known. destruct (identify _ g (at_ fs)); try discriminate H; reflexivity. Qed.
Lemma sweep_stops fs x y rest bv cur A n formals specs : outer fs (map snd bv) -> map snd cur = fs -> stops fs y ->
  runs (fun fuel => sweep fuel g x (Pair y rest) bv cur A n formals specs) (specs, Pair y rest, cur, A, n).
Proof.
  intros E Ec S. exists 1. intros [|fuel] L; [lia|]. cbn [Expander.sweep]. destruct y as [|k|s|k d|id E' g' fr f|key t E' g']; try reflexivity.
  - cbn in S. destruct (is_id k) eqn:I; [|reflexivity]. specialize (S eq_refl _ E). rewrite (identify_ids k g bv (at_ (map snd bv)) (at_of bv _ eq_refl)).
    destruct (keyword_of (identify k g (at_ (map snd bv)))) as [k'|t E0 g0|]; [|destruct S|reflexivity].
    unfold spliced in S. apply orb_false_elim in S. destruct S as [S S3]. apply orb_false_elim in S. destruct S as [S1 S2]. rewrite S1, S2, S3. reflexivity.
  - unfold stops, is_known in S. rewrite (identify_ids _ g cur (at_ fs) (at_of cur fs Ec)), S. reflexivity.
Qed.

(** *** Expanding a settled form again *)
Ltac step := eapply runs_step; [intros fuel; reflexivity|].
Lemma operand_nil bv A n : runs (fun fuel => operand fuel g Nil bv A n) (Nil, A, n).
Proof. step. step. apply runs_ret. Qed.
Lemma operand_cons a d bv A n a' A1 n1 d' A2 n2 : runs (fun fuel => expand fuel g a bv A n) (a', A1, n1) -> runs (fun fuel => operand fuel g d bv A1 n1) (d', A2, n2) ->
  runs (fun fuel => operand fuel g (Pair a d) bv A n) (Pair a' d', A2, n2).
Proof. intros H1 H2. step. eapply runs_bind; [exact H1|]. eapply runs_bind; [exact H2|]. apply runs_ret. Qed.
Definition again {X} (f : nat -> X -> scope -> list alpha -> nat -> outcome (X * list alpha * nat)) dict (fs : list form) (x : X) : Prop :=
  forall bv n, map snd bv = fs -> exists n', n <= n' /\ runs (fun fuel => f fuel x bv (A1 dict) n) (x, A1 dict, n').
Lemma settled_again dict : forall fs,
  (forall x c, settled dict fs x c -> again (fun fuel => expand fuel g) dict fs x) /\
  (forall x c, settled_all dict fs x c -> again (fun fuel => operand fuel g) dict fs x) /\
  (forall x c, settled_specs dict fs x c -> again (fun fuel => binding_specs fuel g) dict fs x) /\
  (forall x c, settled_body dict fs x c -> again (fun fuel => body fuel g) dict fs x).
Proof.
  apply (settled_mutind dict (fun fs x _ => again (fun fuel => expand fuel g) dict fs x) (fun fs x _ => again (fun fuel => operand fuel g) dict fs x)
           (fun fs x _ => again (fun fuel => binding_specs fuel g) dict fs x) (fun fs x _ => again (fun fuel => body fuel g) dict fs x)).
  - intros fs v c H K _ bv n E. exists n. split; [lia|]. apply (expand_var dict fs); auto; apply H.
  - intros fs bv n E. exists n. split; [lia|]. step. apply runs_ret.
  - intros fs k bv n E. exists n. split; [lia|]. step. apply runs_ret.
  - intros fs q x H bv n E. exists n. split; [lia|]. eapply runs_step; [intros fuel; apply (expand_head dict fs q _ bv n _ E H)|]. step. apply runs_ret.
  - intros fs q xs cs H _ IH bv n E. destruct (IH bv n E) as (n' & L & R). exists n'. split; [exact L|].
    eapply runs_step; [intros fuel; apply (expand_head dict fs q _ bv n _ E H)|].
    apply (runs_step (fun fuel => let '(a, A, n) := convert q (A1 dict) n in bind (operand fuel g xs bv A n) (fun '(d, A, n) => Ok (Pair a d, A, n)))); [reflexivity|].
    rewrite (convert_fixed dict q n) by apply H. eapply runs_bind; [exact R|]. apply runs_ret.
  - intros fs q xs cs H _ IH bv n E. destruct (IH bv n E) as (n' & L & R). exists n'. split; [exact L|].
    eapply runs_step; [intros fuel; apply (expand_head dict fs q _ bv n _ E H)|]. step. step.
    eapply runs_bind; [apply (expand_var dict fs q bv n E); [apply H|apply H|apply (head_known _ _ _ _ H)]|]. eapply runs_bind; [exact R|]. apply runs_ret.
  - intros fs q v x cv c H I _ IHv _ IHx bv n E. destruct (IHv bv n E) as (n1 & L1 & R1). destruct (IHx bv n1 E) as (n2 & L2 & R2). exists n2. split; [lia|].
    eapply runs_step; [intros fuel; apply (expand_head dict fs q _ bv n _ E H)|].
    apply (runs_step (fun fuel => let '(a, A, n) := convert q (A1 dict) n in bind (operand fuel g (flist [v; x]) bv A n) (fun '(d, A, n) => Ok (Pair a d, A, n)))); [reflexivity|].
    rewrite (convert_fixed dict q n) by apply H. eapply runs_bind; [eapply operand_cons; [exact R1|]; eapply operand_cons; [exact R2|]; apply operand_nil|]. apply runs_ret.
  - intros fs q formals ys cs H U _ IH bv n E. destruct (IH ((n, formals) :: bv) (S n)) as (n' & L & R); [cbn; f_equal; exact E|]. exists n'. split; [lia|].
    eapply runs_step; [intros fuel; apply (expand_head dict fs q _ bv n _ E H)|].
    apply (runs_step (fun fuel => let '(formals, A', n) := convert_formals formals bv (A1 dict) n in
      bind (body fuel g ys ((n, formals) :: bv) A' (S n)) (fun '(b, A', n) => let '(a, A, n) := convert q (unscope (A1 dict) A') n in Ok (Pair a (Pair formals b), A, n)))); [reflexivity|].
    rewrite (U bv (A1 dict) n E). eapply runs_bind; [exact R|]. cbn [unscope A1 pop]. change [Alpha [] g Nil dict] with (A1 dict).
    rewrite (convert_fixed dict q n') by apply H. apply runs_ret.
  - intros fs q specs ys inits cs H U _ IHs _ IHb bv n E. set (bv' := (n, map_car specs) :: bv).
    destruct (IHs bv' (S n)) as (n1 & L1 & R1); [cbn; f_equal; exact E|]. destruct (IHb bv' n1) as (n2 & L2 & R2); [cbn; f_equal; exact E|]. exists n2. split; [lia|].
    eapply runs_step; [intros fuel; apply (expand_head dict fs q _ bv n _ E H)|].
    apply (runs_step (fun fuel => let '(formals, A, n) := convert_formals (map_car specs) bv (A1 dict) n in
      bind (binding_specs fuel g specs ((n, formals) :: bv) A (S n)) (fun '(specs, A, n') => bind (body fuel g ys ((n, formals) :: bv) A n') (fun '(b, A, n) => Ok (Pair q (Pair specs b), A, n))))); [reflexivity|].
    rewrite (U bv (A1 dict) n E). eapply runs_bind; [exact R1|]. eapply runs_bind; [exact R2|]. apply runs_ret.
  - intros fs f xs c cs Hf IHf _ IHx bv n E. destruct (IHf bv n E) as (n1 & L1 & R1). destruct (IHx bv n1 E) as (n2 & L2 & R2). exists n2. split; [lia|].
    apply (runs_step (fun fuel => expand_call fuel g (Pair f xs) bv (A1 dict) n)).
    { intros fuel. destruct (is_id f) eqn:I; [apply (expand_head dict fs f _ bv n _ E (settled_id _ _ _ _ Hf I))|]. cbn [Expander.expand]. rewrite I. reflexivity. }
    step. eapply runs_bind; [exact R1|]. eapply runs_bind; [exact R2|]. apply runs_ret.
  - intros fs bv n E. exists n. split; [lia|]. step. step. apply runs_ret.
  - intros fs x xs c cs _ IHx _ IHxs bv n E. destruct (IHx bv n E) as (n1 & L1 & R1). destruct (IHxs bv n1 E) as (n2 & L2 & R2). exists n2. split; [lia|].
    step. eapply runs_bind; [exact R1|]. eapply runs_bind; [exact R2|]. apply runs_ret.
  - intros fs bv n E. exists n. split; [lia|]. step. apply runs_ret.
  - intros fs v x specs c cs _ IHx _ IHxs bv n E. destruct (IHx bv n E) as (n1 & L1 & R1). destruct (IHxs bv n1 E) as (n2 & L2 & R2). exists n2. split; [lia|].
    step. eapply runs_bind; [exact R1|]. eapply runs_bind; [exact R2|]. apply runs_ret.
  - intros fs bv n E. exists n. split; [lia|]. step. eapply runs_bind; [step; apply runs_ret|]. step. apply runs_ret.
  - intros fs x xs c cs _ IHx S _ IHxs bv n E. destruct (IHx bv n E) as (n1 & L1 & R1). destruct (IHxs bv n1 E) as (n2 & L2 & R2). exists n2. split; [lia|].
    step. eapply runs_bind; [apply (sweep_stops fs); [left; exact E|exact E|exact S]|]. cbv beta iota. eapply runs_bind; [exact R1|]. eapply runs_bind; [exact R2|]. apply runs_ret.
Qed.

(** *** The code of a settled form *)
Definition gives {C} (f : nat -> scope -> outcome C) (fs : list form) (c : C) : Prop := forall bv, map snd bv = fs -> runs (fun fuel => f fuel bv) c.
Definition all_of (fuel : nat) (x : form) (bv : scope) : outcome (list code) := gather (map (fun y => generate fuel g y bv) (elements x)).
Definition inits_of (fuel : nat) (x : form) (bv : scope) : outcome (list code) := gather (map (fun s => generate fuel g (car (cdr s)) bv) (elements x)).
Definition proper (x : form) : Prop := last_of x = Nil.
Lemma generate_head dict fs q bv k : map snd bv = fs -> head dict fs q (KSyntax k) -> (if is_id q then keyword_of (identify q g bv) else KNone) = KSyntax k.
Proof. intros E (I & _ & _ & H). rewrite I, (identify_ids q g bv (at_ fs) (at_of bv fs E)). apply H, outer_refl. Qed.
Ltac by_head E H := eapply runs_step; [intros fuel; cbn [Expander.generate flist]; rewrite (generate_head _ _ _ _ _ E H);
  cbv [k_quote k_quote_syntax k_lambda k_if k_set k_begin k_letrec]; cbn [Nat.eqb car cdr]; reflexivity|].
Lemma settled_generate dict : forall fs,
  (forall x c, settled dict fs x c -> gives (fun fuel => generate fuel g x) fs c) /\
  (forall x c, settled_all dict fs x c -> gives (fun fuel => all_of fuel x) fs c /\ proper x) /\
  (forall x c, settled_specs dict fs x c -> gives (fun fuel => inits_of fuel x) fs c) /\
  (forall x c, settled_body dict fs x c -> gives (fun fuel => all_of fuel x) fs c).
Proof.
  apply (settled_mutind dict (fun fs x c => gives (fun fuel => generate fuel g x) fs c) (fun fs x c => gives (fun fuel => all_of fuel x) fs c /\ proper x)
           (fun fs x c => gives (fun fuel => inits_of fuel x) fs c) (fun fs x c => gives (fun fuel => all_of fuel x) fs c)).
  - intros fs v c (I & _) K -> bv E. apply (runs_step (fun _ => Ok (variable v g bv))); [destruct v; try discriminate I; reflexivity|].
    unfold Expander.variable. rewrite (identify_ids v g bv (at_ fs) (at_of bv fs E)). apply runs_ret.
  - intros fs bv E. step. apply runs_ret.
  - intros fs k bv E. step. apply runs_ret.
  - intros fs q x H bv E. by_head E H. apply runs_ret.
  - intros fs q xs cs H _ [IH _] bv E. by_head E H. eapply runs_bind; [apply (IH bv E)|]. apply runs_ret.
  - intros fs q xs cs H _ [IH _] bv E. by_head E H. eapply runs_bind; [apply (IH bv E)|]. apply runs_ret.
  - intros fs q v x cv c H I Hv _ _ IHx bv E. by_head E H. eapply runs_bind; [apply (IHx bv E)|]. cbn [car].
    inversion Hv; subst; try discriminate I. unfold Expander.variable. rewrite (identify_ids v g bv (at_ _) (at_of bv _ eq_refl)). apply runs_ret.
  - intros fs q formals ys cs H U _ IH bv E. by_head E H. eapply runs_bind; [apply (IH ((0, formals) :: bv)); cbn; f_equal; exact E|]. apply runs_ret.
  - intros fs q specs ys inits cs H U _ IHs _ IHb bv E. by_head E H. eapply runs_bind; [apply (IHs ((0, map_car specs) :: bv)); cbn; f_equal; exact E|].
    eapply runs_bind; [apply (IHb ((0, map_car specs) :: bv)); cbn; f_equal; exact E|]. apply runs_ret.
  - intros fs f xs c cs Hf IHf _ [IHx Px] bv E.
    apply (runs_step (fun fuel => bind (generate fuel g f bv) (fun f => bind (all_of fuel xs bv) (fun args => bind (generate fuel g (last_of xs) bv) (fun last => Ok (CCall f args last)))))).
    { intros fuel. cbn [Expander.generate]. destruct (is_id f) eqn:I; [|reflexivity]. destruct (settled_id _ _ _ _ Hf I) as (_ & _ & _ & K).
      rewrite (identify_ids f g bv (at_ fs) (at_of bv fs E)), K by apply outer_refl. reflexivity. }
    eapply runs_bind; [apply (IHf bv E)|]. eapply runs_bind; [apply (IHx bv E)|]. rewrite Px. eapply runs_bind; [step; apply runs_ret|]. apply runs_ret.
  - intros fs. split; [|reflexivity]. intros bv E. apply runs_ret.
  - intros fs x xs c cs _ IHx _ [IHxs P]. split; [|exact P]. intros bv E. unfold all_of. cbn [elements map gather]. eapply runs_bind; [apply (IHx bv E)|]. eapply runs_bind; [apply (IHxs bv E)|]. apply runs_ret.
  - intros fs bv E. apply runs_ret.
  - intros fs v x specs c cs _ IHx _ IHxs bv E. unfold inits_of. cbn [elements map gather car cdr flist]. eapply runs_bind; [apply (IHx bv E)|]. eapply runs_bind; [apply (IHxs bv E)|]. apply runs_ret.
  - intros fs bv E. apply runs_ret.
  - intros fs x xs c cs _ IHx _ _ IHxs bv E. unfold all_of. cbn [elements map gather]. eapply runs_bind; [apply (IHx bv E)|]. eapply runs_bind; [apply (IHxs bv E)|]. apply runs_ret.
Qed.

(** ** Identifiers *)
Definition image (dict : list (nat * form)) (v : form) : form := match v with Sym s => match assq s dict with Some x => x | None => v end | _ => v end.
Definition keyword_for (b : option binding) : keyword := match b with Some (Syntax k) => KSyntax k | Some (Macro t g') => KMacro t [] g' | _ => KNone end.
Lemma identify_sym fs T n s g' : Forall (closures (listed T n)) fs -> identify (Sym s) g' (at_ fs) = match ident_at (place (Sym s) fs 0) with Unknown => lookup second s g' | r => r end.
Proof. intros F. cbn [Expander.identify]. rewrite (find_bound_place _ _ (listed_plain T n fs F (at_ fs) (at_frames fs))), at_frames. reflexivity. Qed.
Lemma identify_clo fs T n id g' s : Forall (closures (listed T n)) fs -> identify (Clo id [] g' Nil (Sym s)) g (at_ fs) =
  match ident_at (place (Clo id [] g' Nil (Sym s)) fs 0) with Unknown => match lookup second s g' with Unknown => identify (Sym s) g' (at_ fs) | r => r end | r => r end.
Proof.
  intros F. cbn [Expander.identify is_id]. rewrite (find_bound_place _ _ (listed_plain T n fs F (at_ fs) (at_frames fs))), at_frames, find_bound_pad. reflexivity.
Qed.
Lemma closure_identify_clo fs id g' s : closure_identify (Clo id [] g' Nil (Sym s)) (at_ fs) = match lookup second s g' with Unknown => identify (Sym s) g' (at_ fs) | r => r end.
Proof. cbn [Expander.closure_identify Expander.identify]. rewrite find_bound_pad. reflexivity. Qed.
Lemma keyword_place p : keyword_of (ident_at p) = KNone.
Proof. destruct p as [[[i j] [|]]|]; reflexivity. Qed.
Lemma keyword_lookup s g' : keyword_of (lookup second s g') = keyword_for (match assq s (second g') with Some k => match content k with Value => None | b => Some b end | None => None end).
Proof. unfold lookup. destruct (assq s (second g')) as [k|]; [|reflexivity]. cbn. destruct (content k); reflexivity. Qed.
Lemma keyword_unbound fs T n s g' : Forall (closures (listed T n)) fs -> lookup second s g' = Unknown -> keyword_of (identify (Sym s) g' (at_ fs)) = KNone.
Proof. intros F L. rewrite (identify_sym fs T n s g' F), L. pose proof (keyword_place (place (Sym s) fs 0)) as K. destruct (ident_at (place (Sym s) fs 0)); try exact K; reflexivity. Qed.
Lemma place_known p : p <> None -> exists r, ident_at p = r /\ r <> Unknown /\ keyword_of r = KNone.
Proof. intros H. destruct p as [[[i j] [|]]|]; try congruence; eexists; repeat split; discriminate. Qed.

Lemma outer_listed fs o T n : Forall (closures (listed T n)) fs -> outer fs o -> Forall (closures (listed T n)) o.
Proof. intros F [->|(vs & -> & _)]; [exact F|]. inversion F; assumption. Qed.
Lemma quiet o T n id s : keyword_content (Sym s) = None -> Forall (closures (listed T n)) o -> keyword_of (identify (Clo id [] g Nil (Sym s)) g (at_ o)) = KNone.
Proof.
  intros K F. rewrite (identify_clo o T n _ _ _ F). destruct (place _ o 0) as [[[a b] [|]]|]; try reflexivity. cbn [ident_at].
  pose proof (keyword_lookup s g) as Kl. unfold ExpanderSpec.keyword_content, ExpanderSpec.cell in K; change @bound with @assq in *. rewrite K in Kl.
  destruct (lookup second s g) eqn:L; try exact Kl. apply (keyword_unbound o T n); [exact F|exact L].
Qed.
(** The variables of the definitions are no keywords outside *)
Lemma steady_listed fs T n : Forall (closures (listed T n)) fs -> forall v o, is_id v = true -> closures (listed T n) v -> outer fs o ->
  keyword_of (identify v g (at_ o)) = keyword_of (identify v g (at_ fs)).
Proof.
  intros F v o I L Ho. pose proof (outer_listed _ _ _ _ F Ho) as Fo. destruct Ho as [->|(vs & -> & Av)]; [reflexivity|].
  assert (In' : spot v vs 0 <> None -> not_macro v).
  { intros H. destruct (spot_names v vs 0 H) as (w & Hw & Sw). inversion F as [|? ? Fv]; subst. pose proof (names_closures _ _ _ Fv Hw) as Lw. rewrite Forall_forall in Av. destruct (Av w Hw) as [_ Nw].
    destruct v as [| |s| |id E g' fr f|]; try discriminate I; destruct w; try discriminate Sw.
    - apply Nat.eqb_eq in Sw. subst. exact Nw.
    - rewrite <- (same_listed T n n _ _ Lw L Sw). exact Nw. }
  destruct v as [| |s| |id E g' fr f|]; try discriminate I.
  - rewrite (identify_sym _ T n s g F), (identify_sym _ T n s g Fo). cbn [place]. destruct (spot (Sym s) vs 0) as [[j r]|] eqn:Sp.
    + assert (N : not_macro (Sym s)) by (apply In'; discriminate). unfold ExpanderSpec.not_macro, ExpanderSpec.keyword_content, ExpanderSpec.cell in N; change @bound with @assq in *.
      assert (K : keyword_of (lookup second s g) = KNone) by (rewrite keyword_lookup, N; reflexivity).
      destruct (place (Sym s) o 0) as [[[a b] [|]]|]; destruct r; cbn [ident_at]; try reflexivity; exact K.
    + rewrite (place_shift _ o 1). destruct (place (Sym s) o 0) as [[[a b] [|]]|]; reflexivity.
  - destruct L as (id' & g'' & s & Ec & _). injection Ec as -> -> -> -> ->. rewrite (identify_clo _ T n _ _ _ F), (identify_clo _ T n _ _ _ Fo).
    assert (Un : forall fs, Forall (closures (listed T n)) fs -> keyword_of (match lookup second s g'' with Unknown => identify (Sym s) g'' (at_ fs) | r => r end) = keyword_of (lookup second s g'')).
    { intros fs0 F0. destruct (lookup second s g'') eqn:El; try reflexivity. rewrite (keyword_unbound fs0 T n); auto. }
    cbn [place]. destruct (spot _ vs 0) as [[j r]|] eqn:Sp.
    + assert (N : not_macro (Clo id' [] g'' Nil (Sym s))) by (apply In'; discriminate). unfold ExpanderSpec.not_macro, ExpanderSpec.keyword_content, ExpanderSpec.cell in N; change @bound with @assq in *.
      assert (K : keyword_of (lookup second s g'') = KNone) by (rewrite keyword_lookup, N; reflexivity).
      destruct (place _ o 0) as [[[a b] [|]]|]; destruct r; cbn [ident_at]; try reflexivity; rewrite (Un o Fo); exact K.
    + rewrite (place_shift _ o 1). destruct (place _ o 0) as [[[a b] [|]]|]; try reflexivity. cbn [ident_at]. rewrite (Un o Fo), (Un _ F). reflexivity.
Qed.

Section Identifiers.
  Variables (env fs : list form) (dict : list (nat * form)) (n : nat) (al : list nat) (T : table).
  Hypothesis G : good env fs dict n al T.
  Let F := g_fs _ _ _ _ _ _ G.
  Lemma kw_identify v : is_id v = true -> obeys T n al v -> keyword_of (identify v g (at_ fs)) = keyword_for (kind env v).
  Proof.
    intros I O. destruct v as [| |s| |id E g' fr f|]; try discriminate I.
    - rewrite (identify_sym fs T n s g F). pose proof (g_sym _ _ _ _ _ _ G s) as Gs. unfold ExpanderSpec.kind. destruct (assq s dict) as [x|].
      + destruct Gs as (_ & P & _ & _ & Ex). rewrite <- (g_memq _ _ _ _ _ _ G) in Ex. pose proof (place_memq _ _ Ex 0) as P'.
        destruct (place_known _ P') as (r & E & N & K). rewrite E. destruct (place (Sym s) env 0); [|congruence]. destruct r; try congruence; exact K.
      + rewrite <- Gs. destruct (place (Sym s) fs 0) as [[[i j] [|]]|]; try reflexivity. cbn [ident_at]. apply keyword_lookup.
    - pose proof O as M. cbn in M. pose proof (g_alias _ _ _ _ _ _ G _ M) as Ga. destruct M as [(id' & g'' & s & Ec & _) _]. injection Ec as -> -> -> -> ->.
      rewrite (identify_clo fs T n _ _ _ F). unfold ExpanderSpec.kind. rewrite <- Ga. destruct (place _ fs 0) as [[[i j] [|]]|]; try reflexivity.
      cbn [ident_at]. unfold ExpanderSpec.keyword_content, ExpanderSpec.cell; change @bound with @assq in *. rewrite <- keyword_lookup. destruct (lookup second s g'') eqn:L; try reflexivity. apply (keyword_unbound fs T n); [exact F|exact L].
  Qed.
  Lemma steady v o : is_id v = true -> closures (listed T n) v -> outer fs o -> keyword_of (identify v g (at_ o)) = keyword_of (identify v g (at_ fs)).
  Proof. apply (steady_listed fs T n F). Qed.
  Lemma kw_outer v o : is_id v = true -> obeys T n al v -> outer fs o -> keyword_of (identify v g (at_ o)) = keyword_for (kind env v).
  Proof. intros I O Ho. rewrite (steady v o I); [apply kw_identify; auto| |exact Ho]. eapply closures_mono; [|exact O]. intros c [L _]. exact L. Qed.
  Lemma op_identify v : is_id v = true -> obeys T n al v -> keyword_of (op fs v) = keyword_for (kind env v).
  Proof.
    intros I O. destruct v as [| |s| |id E g' fr f|]; try discriminate I; [apply kw_identify; auto|].
    unfold op. pose proof O as M. cbn in M. pose proof (g_kw _ _ _ _ _ _ G _ M) as Gk. destruct M as [(id' & g'' & s & Ec & _) _]. injection Ec as -> -> -> -> ->.
    rewrite closure_identify_clo. unfold ExpanderSpec.kind. unfold ExpanderSpec.keyword_content, ExpanderSpec.cell in Gk |- *; change @bound with @assq in *. pose proof (keyword_lookup s g'') as K.
    destruct (place _ env 0).
    - rewrite Gk in K by discriminate. destruct (lookup second s g'') eqn:L; try exact K. apply (keyword_unbound fs T n); [exact F|exact L].
    - rewrite <- K. destruct (lookup second s g'') eqn:L; try reflexivity. apply (keyword_unbound fs T n); [exact F|exact L].
  Qed.
  Lemma fixed_kind v b : kind env v = Some b -> fixed dict v.
  Proof.
    intros K. destruct v as [| |s| | |]; try exact I. cbn. pose proof (g_sym _ _ _ _ _ _ G s) as Gs. destruct (assq s dict); [|reflexivity].
    destruct Gs as (_ & P & _). unfold ExpanderSpec.kind in K. destruct (place (Sym s) env 0); congruence.
  Qed.
  Lemma head_kind v b : is_id v = true -> obeys T n al v -> kind env v = Some b -> head dict fs v (keyword_for (Some b)).
  Proof. intros I O K. repeat split; [exact I|apply (fixed_kind v b K)|rewrite op_identify, K; auto|intros o Ho; rewrite kw_outer, K; auto]. Qed.
  Lemma image_renamed s id : assq s dict = Some (Clo id [] g Nil (Sym s)) -> keyword_of (op fs (Clo id [] g Nil (Sym s))) = KNone.
  Proof.
    intros D. pose proof (g_sym _ _ _ _ _ _ G s) as Gs. rewrite D in Gs. destruct Gs as (_ & _ & _ & K & _).
    unfold op. rewrite closure_identify_clo. pose proof (keyword_lookup s g) as Kl. unfold ExpanderSpec.keyword_content, ExpanderSpec.cell in K; change @bound with @assq in *. rewrite K in Kl.
    destruct (lookup second s g) eqn:L; try exact Kl. apply (keyword_unbound fs T n); [exact F|exact L].
  Qed.
  Lemma variable_image v c : is_id v = true -> obeys T n al v -> kind env v = None -> denotes env v c ->
    head dict fs (image dict v) KNone /\ is_known fs (image dict v) /\ c = variable (image dict v) g (at_ fs).
  Proof.
    intros I O K D. unfold ExpanderSpec.denotes in D. destruct v as [| |s| |id E g' fr f|]; try discriminate I.
    - pose proof (g_sym _ _ _ _ _ _ G s) as Gs. cbn [image]. destruct (assq s dict) as [x|] eqn:Ed.
      + destruct Gs as ((id & -> & _) & P & Px & Kc & _). destruct (place (Sym s) env 0) as [[[i j] r]|] eqn:Ep; [|congruence].
        assert (Ei : identify (Clo id [] g Nil (Sym s)) g (at_ fs) = ident_at (Some (i, j, r))). { rewrite (identify_clo fs T n _ _ _ F), Px. destruct r; reflexivity. }
        repeat split.
        * apply (image_renamed s id Ed).
        * intros o Ho. apply (quiet o T n); [exact Kc|apply (outer_listed _ _ _ _ F Ho)].
        * unfold is_known. rewrite Ei. destruct r; reflexivity.
        * unfold Expander.variable. rewrite Ei, D. destruct r; reflexivity.
      + assert (Kk := op_identify (Sym s) eq_refl O). assert (Ki := fun o => kw_outer (Sym s) o eq_refl O). rewrite K in Kk, Ki. repeat split; auto.
        unfold Expander.variable. rewrite (identify_sym fs T n s g F), Gs. destruct (place (Sym s) env 0) as [[[i j] [|]]|]; [exact D|exact D|].
        cbn [ident_at]. unfold lookup. cbn [ExpanderSpec.cell] in D; change @bound with @assq in *. destruct (assq s (second g)); exact D.
    - assert (Kk := op_identify _ I O). assert (Ki := fun o => kw_outer _ o I O). rewrite K in Kk, Ki. cbn [image].
      pose proof O as M. cbn in M. pose proof (g_alias _ _ _ _ _ _ G _ M) as Ga. destruct M as [(id' & g'' & s & Ec & _) _]. injection Ec as -> -> -> -> ->.
      assert (Ei := identify_clo fs T n id' g'' s F). rewrite Ga in Ei.
      destruct (place _ env 0) as [[[i j] r]|].
      + repeat split; auto; [unfold is_known; rewrite Ei; destruct r; reflexivity|]. unfold Expander.variable. rewrite Ei, D. destruct r; reflexivity.
      + cbn [ExpanderSpec.cell] in D; change @bound with @assq in *. cbn [ident_at] in Ei. unfold lookup in Ei. destruct (assq s (second g'')) as [k|]; [|destruct D].
        repeat split; auto; [unfold is_known; rewrite Ei; reflexivity|]. unfold Expander.variable. rewrite Ei. exact D.
  Qed.
  Lemma expand_variable v c bv : map snd bv = fs -> is_id v = true -> obeys T n al v -> kind env v = None -> denotes env v c ->
    runs (fun fuel => expand fuel g v bv (A1 dict) n) (image dict v, A1 dict, n) /\ settled dict fs (image dict v) c /\ stops fs (image dict v).
  Proof.
    intros E I O K D. destruct (variable_image v c I O K D) as (H & Kn & Ec). repeat split.
    - destruct v as [| |s| |id E' g' fr f|]; try discriminate I.
      + apply (runs_step (fun _ => Ok (convert (Sym s) (A1 dict) n))); [reflexivity|].
        assert (Cv : convert (Sym s) (A1 dict) n = (image dict (Sym s), A1 dict, n)) by (cbn; destruct (assq s dict); reflexivity). rewrite Cv. apply runs_ret.
      + apply (expand_var dict fs); auto. exact Logic.I.
    - apply C_variable; auto.
    - destruct H as (Ii & _). destruct (image dict v); try discriminate Ii; [exact Logic.I|exact Kn].
  Qed.
  Lemma expand_call_eq f d bv : map snd bv = fs -> (is_id f = true -> kind env f = None) -> obeys T n al f ->
    forall fuel, expand (S fuel) g (Pair f d) bv (A1 dict) n = expand_call fuel g (Pair f d) bv (A1 dict) n.
  Proof.
    intros E K O fuel. cbn [Expander.expand]. destruct (is_id f) eqn:I; [|reflexivity]. specialize (K eq_refl).
    assert (Kk := op_identify f I O). rewrite K in Kk. destruct f as [| |s| |id E' g' fr f|]; try discriminate I.
    - cbn [convert convert_sym A1 a_free memq a_dict]. destruct (assq s dict) as [x|] eqn:Ed.
      + pose proof (g_sym _ _ _ _ _ _ G s) as Gs. rewrite Ed in Gs. destruct Gs as ((id & -> & _) & _). pose proof (image_renamed s id Ed) as Kr.
        rewrite (closure_identify_ids _ bv (at_ fs) (at_of bv fs E)). unfold op in Kr. rewrite Kr. reflexivity.
      + rewrite (identify_ids _ g bv (at_ fs) (at_of bv fs E)). unfold op in Kk. rewrite Kk. reflexivity.
    - cbn [convert]. rewrite (closure_identify_ids _ bv (at_ fs) (at_of bv fs E)). unfold op in Kk. rewrite Kk. reflexivity.
  Qed.
  Lemma expression_stops x : obeys T n al x -> is_id x = false -> expression second content g env x -> stops fs x.
  Proof.
    intros O N Ex. destruct x as [| | |a d| |]; try exact I; try discriminate N. cbn. intros Ia o Ho. rewrite (kw_outer a o Ia (proj1 O) Ho). specialize (Ex Ia).
    destruct (kind env a) as [[k|t g'|]|]; try exact I; [exact Ex|exact Ex].
  Qed.
End Identifiers.

(** ** Uses of macros *)
Hypothesis core_lambda : exists c, assq k_lambda (second core) = Some c /\ content c = Syntax k_lambda.
Hypothesis core_set : exists c, assq k_set (second core) = Some c /\ content c = Syntax k_set.
Hypothesis parts : forall t x tp, macro t x = Some tp -> forall ok, closures ok x -> template_parts ok tp.
Lemma instance_obeys al g' tp : forall r n T, template_parts (mine T n al) tp -> (forall s x, assq s r = Some x -> mine T n al x) -> (forall id, In id al -> id < n) ->
  exists y r' n' T', instance ([], g') tp r n = (y, r', n') /\ n <= n' /\ agree n T T' /\ obeys T' n' al y /\ (forall s x, assq s r' = Some x -> mine T' n' al x).
Proof.
  induction tp as [x|s|k| |a IHa d IHd]; intros r n T P R A; cbn [instance].
  - exists x, r, n, T. split; [reflexivity|]. split; [lia|]. split; [intros id _; reflexivity|]. split; [exact P|exact R].
  - unfold rename. destruct (assq s r) as [x|] eqn:E.
    + exists x, r, n, T. split; [reflexivity|]. split; [lia|]. split; [intros id _; reflexivity|]. split; [|exact R]. pose proof (R s x E) as M. destruct M as [(id & g'' & s' & -> & L & Ti) N]. split; [exists id, g'', s'; auto|exact N].
    + cbn [fst snd]. eexists _, _, _, (update T n (g', s)). split; [reflexivity|]. split; [lia|]. split; [apply agree_update|].
      assert (M : mine (update T n (g', s)) (S n) al (Clo n [] g' Nil (Sym s))).
      { split; [exists n, g', s; repeat split; [lia|]; unfold update; rewrite Nat.eqb_refl; reflexivity|]. cbn. intros H. specialize (A n H). lia. }
      split; [exact M|]. intros s' x. cbn [assq]. destruct (s' =? s); [intros H; injection H as <-; exact M|]. intros H. specialize (R s' x H).
      destruct R as [L N]. split; [|exact N]. eapply listed_mono; [|apply agree_update|exact L]. lia.
  - exists (Atom k), r, n, T. split; [reflexivity|]. split; [lia|]. split; [intros id _; reflexivity|]. split; [exact I|exact R].
  - exists Nil, r, n, T. split; [reflexivity|]. split; [lia|]. split; [intros id _; reflexivity|]. split; [exact I|exact R].
  - destruct P as [Pa Pd]. destruct (IHa r n T Pa R A) as (y1 & r1 & n1 & T1 & E1 & L1 & A1' & O1 & R1). rewrite E1.
    destruct (IHd r1 n1 T1) as (y2 & r2 & n2 & T2 & E2 & L2 & A2 & O2 & R2); [|exact R1|intros id H; specialize (A id H); lia|].
    { clear -Pd L1 A1'. induction d; cbn in *; auto; [|tauto]. revert Pd. apply obeys_mono; auto. }
    rewrite E2. exists (Pair y1 y2), r2, n2, T2. split; [reflexivity|]. split; [lia|]. split; [eapply agree_trans; eauto|]. split; [|exact R2]. split; [|exact O2]. revert O1. apply obeys_mono; auto.
Qed.
Lemma macro_step env fs dict n al T q t g' xs tp : good env fs dict n al T -> obeys T n al (Pair q xs) -> macro t (Pair q xs) = Some tp ->
  exists m T', n <= m /\ agree n T T' /\ obeys T' m al (stands_for tp g' n) /\ good env fs dict m al T' /\ Forall (below n) env /\ below n (Pair q xs) /\
    (forall s, stands_for tp g' n = Sym s -> tp = TForm (Sym s)) /\
    (forall cur, run_macro transform t (Pair q xs) (cur, g) ([], g') n = Ok (Clo m cur g Nil (stands_for tp g' n), S m)).
Proof.
  intros G O M. destruct (instance_obeys al g' tp [] n T) as (y & r' & m & T' & E & L & A & Oy & _); [apply (parts _ _ _ M), O|discriminate|apply G|].
  assert (St : stands_for tp g' n = y) by (unfold stands_for; rewrite write_out_instance, E; reflexivity).
  exists m, T'. rewrite St. repeat match goal with |- _ /\ _ => split end.
  - exact L.
  - exact A.
  - exact Oy.
  - eapply good_mono; [| |exact G]; [lia|exact A].
  - eapply Forall_impl; [|apply (g_env _ _ _ _ _ _ G)]. intros f. apply obeys_below.
  - eapply obeys_below, O.
  - intros s Ey. clear -E Ey. rewrite Ey in E. clear y Ey. destruct tp as [x|s'|k| |tp1 tp2]; try discriminate E; [cbn in E; congruence|]. cbn [instance] in E. destruct (instance ([], g') tp1 [] n) as [[y1 r1] n1]. destruct (instance ([], g') tp2 r1 n1) as [[y2 r2] n2]. discriminate E.
  - intros cur. unfold run_macro, er_transform. rewrite M, E. reflexivity.
Qed.
Lemma clo_identify fs T n m cur f : Forall (closures (listed T n)) fs -> n <= m -> map snd cur = fs ->
  identify (Clo m cur g Nil f) g (at_ fs) = (if is_id f then identify f g (at_ fs) else Unknown) /\ (is_id f = true -> op fs (Clo m cur g Nil f) = identify f g (at_ fs)).
Proof.
  intros F L E. assert (Ep : pad cur (at_ fs) = cur) by (apply pad_self, (at_of cur fs E)). assert (Ec : identify f g cur = identify f g (at_ fs)) by apply identify_ids, (at_of cur fs E). split.
  - cbn [Expander.identify]. rewrite (find_bound_place _ _ (listed_plain T n fs F (at_ fs) (at_frames fs))), at_frames, (place_fresh fs n m) by (auto; eapply fs_ids, F).
    cbn [ident_at]. rewrite Ep, Ec. destruct (is_id f); [|reflexivity]. destruct (identify f g (at_ fs)); reflexivity.
  - intros I. cbn [op Expander.closure_identify]. rewrite Ep, Ec. destruct (identify f g (at_ fs)); reflexivity.
Qed.
Lemma obeys_listed T n al x : obeys T n al x -> closures (listed T n) x.
Proof. apply closures_mono. intros c [L _]. exact L. Qed.
Lemma clo_outer fs T n m cur f o : Forall (closures (listed T n)) fs -> n <= m -> map snd cur = fs -> is_id f = true -> closures (listed T n) f -> outer fs o ->
  keyword_of (identify (Clo m cur g Nil f) g (at_ o)) = keyword_of (identify f g (at_ fs)).
Proof.
  intros F L E I Lf Ho. pose proof (outer_listed _ _ _ _ F Ho) as Fo. assert (Ec : identify f g cur = identify f g (at_ fs)) by apply identify_ids, (at_of cur fs E).
  assert (Ep : pad cur (at_ o) = cur).
  { unfold pad. replace (length (at_ o) - length cur) with 0; [reflexivity|]. rewrite <- (map_length snd cur), E, <- (map_length snd (at_ o)), at_frames. destruct Ho as [->|(vs & -> & _)]; cbn; lia. }
  cbn [Expander.identify]. rewrite (find_bound_place _ _ (listed_plain T n o Fo (at_ o) (at_frames o))), at_frames, (place_fresh o n m) by (auto; eapply fs_ids, Fo).
  cbn [ident_at]. rewrite I, Ep, Ec. destruct (identify f g (at_ fs)) eqn:Ef; try reflexivity. rewrite (steady_listed fs T n F f o I Lf Ho), Ef. reflexivity.
Qed.
(** A macro that stands for an identifier *)
Lemma closure_of_variable env fs dict n al T m cur f c : good env fs dict n al T -> n <= m -> map snd cur = fs -> is_id f = true -> obeys T n al f -> fixed dict f ->
  kind env f = None -> denotes env f c ->
  (is_known fs (Clo m cur g Nil f) /\ settled dict fs (Clo m cur g Nil f) c) \/ (known (identify (Clo m cur g Nil f) g (at_ fs)) = false /\ exists s, f = Sym s).
Proof.
  intros G L E I O Fx K D. destruct (clo_identify fs T n m cur f (g_fs _ _ _ _ _ _ G) L E) as [Ei Eo]. rewrite I in Ei. specialize (Eo I).
  assert (Im : image dict f = f) by (destruct f; try reflexivity; cbn in Fx |- *; rewrite Fx; reflexivity).
  destruct (variable_image env fs dict n al T G f c I O K D) as (H & Kn & Ec). rewrite Im in H, Kn, Ec. destruct (identify f g (at_ fs)) eqn:Ef.
  - right. rewrite Ei. split; [reflexivity|]. destruct f; try discriminate I; [eexists; reflexivity|]. unfold is_known in Kn. rewrite Ef in Kn. discriminate Kn.
  - left. rewrite <- Ef in Ei, Eo. assert (Kx : is_known fs (Clo m cur g Nil f)) by (unfold is_known; rewrite Ei, Ef; reflexivity). split; [exact Kx|]. apply C_variable; [|exact Kx|].
    + destruct H as (_ & _ & H1 & H2). repeat split; [rewrite Eo; apply H2, outer_refl|]. intros o Ho. rewrite (clo_outer fs T n m cur f o (g_fs _ _ _ _ _ _ G) L E I (obeys_listed _ _ _ _ O) Ho). apply H2, outer_refl.
    + rewrite Ec. unfold Expander.variable. rewrite Ei, Ef. reflexivity.
  - left. rewrite <- Ef in Ei, Eo. assert (Kx : is_known fs (Clo m cur g Nil f)) by (unfold is_known; rewrite Ei, Ef; reflexivity). split; [exact Kx|]. apply C_variable; [|exact Kx|].
    + destruct H as (_ & _ & H1 & H2). repeat split; [rewrite Eo; apply H2, outer_refl|]. intros o Ho. rewrite (clo_outer fs T n m cur f o (g_fs _ _ _ _ _ _ G) L E I (obeys_listed _ _ _ _ O) Ho). apply H2, outer_refl.
    + rewrite Ec. unfold Expander.variable. rewrite Ei, Ef. reflexivity.
  - left. rewrite <- Ef in Ei, Eo. assert (Kx : is_known fs (Clo m cur g Nil f)) by (unfold is_known; rewrite Ei, Ef; reflexivity). split; [exact Kx|]. apply C_variable; [|exact Kx|].
    + destruct H as (_ & _ & H1 & H2). repeat split; [rewrite Eo; apply H2, outer_refl|]. intros o Ho. rewrite (clo_outer fs T n m cur f o (g_fs _ _ _ _ _ _ G) L E I (obeys_listed _ _ _ _ O) Ho). apply H2, outer_refl.
    + rewrite Ec. unfold Expander.variable. rewrite Ei, Ef. reflexivity.
  - exfalso. destruct H as (_ & _ & _ & H2). specialize (H2 fs (outer_refl fs)). rewrite Ef in H2. discriminate H2.
Qed.

(** ** Bodies *)
Definition ready (dict : list (nat * form)) (fs : list form) (a : form) (n : nat) (c : code) : Prop :=
  stops fs a /\ forall bv n1, map snd bv = fs -> n <= n1 -> exists y n2, n1 <= n2 /\ runs (fun fuel => expand fuel g a bv (A1 dict) n1) (y, A1 dict, n2) /\ settled dict fs y c /\ stops fs y.
Fixpoint swept (dict : list (nat * form)) (fs : list form) (cs : list code) (n0 : nat) (seq : form) : Prop :=
  forall x0 bv cur n formals specs, outer fs (map snd bv) -> map snd cur = fs -> n0 <= n ->
    exists seq' n', n <= n' /\ runs (fun fuel => sweep fuel g x0 seq bv cur (A1 dict) n formals specs) (specs, seq', cur, A1 dict, n') /\
      match cs with
      | [] => seq' = Nil
      | c :: cs => exists a d, seq' = Pair a d /\ ready dict fs a n' c /\ swept dict fs cs n' d
      end.
Lemma swept_mono dict fs cs n n' seq : n <= n' -> swept dict fs cs n seq -> swept dict fs cs n' seq.
Proof. intros L H. destruct cs; intros x0 bv cur m formals specs E Ec Lm; apply H; auto; lia. Qed.
Lemma ready_mono dict fs a n n' c : n <= n' -> ready dict fs a n c -> ready dict fs a n' c.
Proof. intros L [S H]. split; [exact S|]. intros bv n1 E L1. apply H; [exact E|lia]. Qed.
Lemma swept_nil dict fs n : swept dict fs [] n Nil.
Proof. intros x0 bv cur m formals specs E Ec L. exists Nil, m. split; [lia|]. split; [step; apply runs_ret|reflexivity]. Qed.
Lemma swept_stop dict fs a c cs n d : ready dict fs a n c -> swept dict fs cs n d -> swept dict fs (c :: cs) n (Pair a d).
Proof.
  intros R W x0 bv cur m formals specs E Ec L. exists (Pair a d), m. split; [lia|]. split; [apply (sweep_stops fs); auto; apply R|].
  exists a, d. split; [reflexivity|]. split; [apply (ready_mono _ _ _ n); auto|apply (swept_mono _ _ _ n); auto].
Qed.
Lemma swept_step dict fs cs n seq seq2 : (forall x0 bv cur m formals specs fuel, outer fs (map snd bv) -> sweep (S fuel) g x0 seq bv cur (A1 dict) m formals specs = sweep fuel g x0 seq2 bv cur (A1 dict) m formals specs) ->
  swept dict fs cs n seq2 -> swept dict fs cs n seq.
Proof.
  intros H W. destruct cs; intros x0 bv cur m formals specs E Ec L; destruct (W x0 bv cur m formals specs E Ec L) as (seq' & n' & L' & R & Rest); exists seq', n'; (split; [exact L'|]);
    (split; [eapply runs_step; [intros fuel; apply H, E|exact R]|exact Rest]).
Qed.
Lemma swept_body dict fs : forall cs n0 seq, swept dict fs cs n0 seq -> forall bv n, map snd bv = fs -> n0 <= n ->
  exists ys n', n <= n' /\ runs (fun fuel => body fuel g seq bv (A1 dict) n) (ys, A1 dict, n') /\ settled_body dict fs ys cs.
Proof.
  induction cs as [|c cs IH]; intros n0 seq W bv n E L; destruct (W seq bv bv n Nil Nil (or_introl E) E L) as (seq' & n1 & L1 & R & Rest).
  - subst seq'. exists Nil, n1. split; [exact L1|]. split; [|constructor]. step. eapply runs_bind; [exact R|]. cbv beta iota. step. apply runs_ret.
  - destruct Rest as (a & d & -> & [Sa Ra] & Wd). destruct (Ra bv n1 E (le_n _)) as (y & n2 & L2 & Ry & Sy & St).
    destruct (IH n1 d Wd bv n2 E L2) as (ys & n3 & L3 & Rd & Sd). exists (Pair y ys), n3. split; [lia|]. split; [|constructor; auto].
    step. eapply runs_bind; [exact R|]. cbv beta iota. eapply runs_bind; [exact Ry|]. eapply runs_bind; [exact Rd|]. apply runs_ret.
Qed.
Inductive settled_item (dict : list (nat * form)) (fs : list form) : form -> list code -> Prop :=
| SI_one y c : settled dict fs y c -> stops fs y -> settled_item dict fs y [c]
| SI_begin q ys cs : head dict fs q (KSyntax k_begin) -> settled_items dict fs ys cs -> settled_item dict fs (Pair q ys) cs
with settled_items (dict : list (nat * form)) (fs : list form) : form -> list code -> Prop :=
| SI_nil : settled_items dict fs Nil []
| SI_cons y ys c cs : settled_item dict fs y c -> settled_items dict fs ys cs -> settled_items dict fs (Pair y ys) (c ++ cs).
Scheme settled_item_ind' := Minimality for settled_item Sort Prop
  with settled_items_ind' := Minimality for settled_items Sort Prop.
Combined Scheme settled_item_mutind from settled_item_ind', settled_items_ind'.
Lemma sweep_begin dict fs q ys rest x0 bv cur m formals specs fuel : head dict fs q (KSyntax k_begin) -> outer fs (map snd bv) ->
  sweep (S fuel) g x0 (Pair (Pair q ys) rest) bv cur (A1 dict) m formals specs = sweep fuel g x0 (append ys rest) bv cur (A1 dict) m formals specs.
Proof. intros (I & _ & _ & K) E. cbn [Expander.sweep]. rewrite I, (identify_ids q g bv (at_ (map snd bv)) (at_of bv _ eq_refl)), (K _ E). reflexivity. Qed.
Lemma swept_settled dict fs :
  (forall y cs, settled_item dict fs y cs -> forall n rest cs', swept dict fs cs' n rest -> swept dict fs (cs ++ cs') n (Pair y rest)) /\
  (forall ys cs, settled_items dict fs ys cs -> forall n rest cs', swept dict fs cs' n rest -> swept dict fs (cs ++ cs') n (append ys rest)).
Proof.
  apply (settled_item_mutind dict fs (fun y cs => forall n rest cs', swept dict fs cs' n rest -> swept dict fs (cs ++ cs') n (Pair y rest))
           (fun ys cs => forall n rest cs', swept dict fs cs' n rest -> swept dict fs (cs ++ cs') n (append ys rest))).
  - intros y c S St n rest cs' W. apply swept_stop; [|exact W]. split; [exact St|]. intros bv n1 E L. destruct (proj1 (settled_again dict fs) y c S bv n1 E) as (n' & L' & R). exists y, n'. auto.
  - intros q ys cs H _ IH n rest cs' W. eapply swept_step; [|apply IH, W]. intros. apply (sweep_begin dict fs); auto.
  - intros n rest cs' W. exact W.
  - intros y ys c cs _ IHy _ IHys n rest cs' W. rewrite <- app_assoc. cbn [append]. apply IHy, IHys, W.
Qed.

(** ** The expander and the specification *)
Lemma good_later env fs dict n al T n' : n <= n' -> good env fs dict n al T -> good env fs dict n' al T.
Proof. intros L. apply good_mono; [exact L|intros id _; reflexivity]. Qed.
Lemma obeys_later T n n' al x : n <= n' -> obeys T n al x -> obeys T n' al x.
Proof. intros L. apply obeys_mono; [exact L|intros id _; reflexivity|auto]. Qed.
Definition PE (env : list form) (x : form) (c : code) : Prop := forall bv dict n al T, good env (map snd bv) dict n al T -> obeys T n al x ->
  exists y n', n <= n' /\ runs (fun fuel => expand fuel g x bv (A1 dict) n) (y, A1 dict, n') /\ settled dict (map snd bv) y c /\ (expression second content g env x -> stops (map snd bv) y).
Definition PA (env : list form) (x : form) (cs : list code) : Prop := forall bv dict n al T, good env (map snd bv) dict n al T -> obeys T n al x ->
  exists y n', n <= n' /\ runs (fun fuel => operand fuel g x bv (A1 dict) n) (y, A1 dict, n') /\ settled_all dict (map snd bv) y cs.
Definition PS (env : list form) (x : form) (cs : list code) : Prop := forall bv dict n al T, good env (map snd bv) dict n al T -> obeys T n al x ->
  exists y n', n <= n' /\ runs (fun fuel => binding_specs fuel g x bv (A1 dict) n) (y, A1 dict, n') /\ settled_specs dict (map snd bv) y cs /\ map_car y = map_car x.
Definition PB (env : list form) (x : form) (cs : list code) : Prop := forall bv dict n al T, good env (map snd bv) dict n al T -> obeys T n al x ->
  exists y n', n <= n' /\ runs (fun fuel => body fuel g x bv (A1 dict) n) (y, A1 dict, n') /\ settled_body dict (map snd bv) y cs.
Definition PIs (env : list form) (x : form) (cs : list code) : Prop :=
  (forall bv dict n al T, good env (map snd bv) dict n al T -> obeys T n al x ->
   exists y n', n <= n' /\ runs (fun fuel => operand fuel g x bv (A1 dict) n) (y, A1 dict, n') /\ settled_items dict (map snd bv) y cs) /\
  (forall fs dict n al T, good env fs dict n al T -> obeys T n al x -> forall rest cs', swept dict fs cs' n rest -> swept dict fs (cs ++ cs') n (append x rest)) /\ append x Nil = x.
Definition PI (env : list form) (x : form) (cs : list code) : Prop :=
  (forall bv dict n al T, good env (map snd bv) dict n al T -> obeys T n al x ->
   exists y n', n <= n' /\ runs (fun fuel => expand fuel g x bv (A1 dict) n) (y, A1 dict, n') /\ settled_item dict (map snd bv) y cs) /\
  (forall fs dict n al T, good env fs dict n al T -> obeys T n al x -> forall rest cs', swept dict fs cs' n rest -> swept dict fs (cs ++ cs') n (Pair x rest)).
Lemma syntax_head env fs dict n al T q k : good env fs dict n al T -> obeys T n al q -> syntax env q k -> head dict fs q (KSyntax k).
Proof. intros G O [I K]. apply (head_kind env fs dict n al T G q (Syntax k) I O K). Qed.
Lemma syntax_stops fs q d k : (forall o, outer fs o -> keyword_of (identify q g (at_ o)) = KSyntax k) -> spliced k = false -> stops fs (Pair q d).
Proof. intros H S I o Ho. rewrite (H o Ho). exact S. Qed.
Lemma strip_quoted x : simple_datum x -> strip x = quoted x.
Proof.
  intros [I|C]; [destruct x; try discriminate I; reflexivity|]. assert (Q : quoted x = x) by (destruct x; try reflexivity; destruct C). rewrite Q.
  clear Q. induction x as [|k|s|a IHa d IHd|id E g' fr IHfr f IHf|key IHk t E g']; try reflexivity; [|destruct C]. destruct C as [Ca Cd]. cbn. rewrite (IHa Ca), (IHd Cd). reflexivity.
Qed.
Lemma unrenamed_of fs formals : (forall s, renames fs s = true -> spot (Sym s) formals 0 = None) -> unrenamed fs formals.
Proof.
  intros H bv A n E. revert H. induction formals as [|k|s|a IHa d IHd|id E' g' fr IHfr f IHf|key IHk t E' g']; intros H; try reflexivity.
  - cbn [convert_formals]. rewrite renames_scope, E. destruct (renames fs s) eqn:R; [|reflexivity]. specialize (H s R). cbn in H. rewrite Nat.eqb_refl in H. discriminate H.
  - cbn [convert_formals]. assert (Hd : convert_formals d bv A n = (d, A, n)).
    { apply IHd. intros s R. specialize (H s R). cbn [spot] in H; try change identical with same in H. destruct (same a (Sym s)); [discriminate H|]. apply spot_shift in H. exact H. }
    destruct a as [| |s| | |]; rewrite ?Hd; try reflexivity. rewrite renames_scope, E. destruct (renames fs s) eqn:R; [|rewrite Hd; reflexivity].
    specialize (H s R). cbn in H. rewrite Nat.eqb_refl in H. discriminate H.
Qed.
Lemma smaller_converted fs T n dict formals formals' dict' n' new T' : converted fs T n dict formals formals' dict' n' new T' -> smaller dict dict'.
Proof.
  intros C s H. destruct (renames fs s) eqn:R.
  - destruct (c_renamed _ _ _ _ _ _ _ _ _ _ C s 0 R) as (_ & _ & S). destruct (spot (Sym s) formals 0); [destruct S as (id & _ & S & _); congruence|congruence].
  - destruct (c_kept _ _ _ _ _ _ _ _ _ _ C s 0 R) as (_ & _ & S). congruence.
Qed.
Lemma obeys_formals fs T n dict formals formals' dict' n' new T' al x : converted fs T n dict formals formals' dict' n' new T' -> obeys T n al x -> obeys T' (S n') (new ++ al) x.
Proof.
  intros C. apply obeys_mono; [pose proof (c_le _ _ _ _ _ _ _ _ _ _ C); lia|apply C|]. intros id H. apply in_app_or in H. destruct H as [H|H]; [right; apply (c_new _ _ _ _ _ _ _ _ _ _ C id H)|left; exact H].
Qed.
(** A use of a macro, expanded *)
Lemma expand_macro env bv dict n al T q t g' xs tp : good env (map snd bv) dict n al T -> obeys T n al (Pair q xs) -> is_id q = true -> kind env q = Some (Macro t g') ->
  macro t (Pair q xs) = Some tp -> not_shadowing env tp ->
  exists m T', n <= m /\ good env (map snd bv) dict m al T' /\ obeys T' m al (stands_for tp g' n) /\ Forall (below n) env /\ below n (Pair q xs) /\ fixed dict (stands_for tp g' n) /\
    (forall cur, run_macro transform t (Pair q xs) (cur, g) ([], g') n = Ok (Clo m cur g Nil (stands_for tp g' n), S m)) /\
    (forall fuel, expand (S fuel) g (Pair q xs) bv (A1 dict) n = expand fuel g (Clo m bv g Nil (stands_for tp g' n)) bv (A1 dict) (S m)).
Proof.
  intros G O I K M N. destruct (macro_step env (map snd bv) dict n al T q t g' xs tp G O M) as (m & T' & L & A & Oy & G' & Be & Bx & Sy & Run).
  exists m, T'. repeat match goal with |- _ /\ _ => split end; auto.
  - destruct (stands_for tp g' n) as [| |s| | |] eqn:Es; try exact Logic.I. rewrite (Sy s eq_refl) in N. cbn in N |- *. rewrite (g_shadow _ _ _ _ _ _ G) in N. destruct (assq s dict); [discriminate N|reflexivity].
  - intros fuel. rewrite (expand_head dict (map snd bv) q xs bv n _ eq_refl (head_kind _ _ _ _ _ _ G q _ I (proj1 O) K)). cbn [keyword_for]. rewrite Run. reflexivity.
Qed.
(** The closure around a form that is not an identifier is opened *)
Lemma open_closure fs T n m bv f A n' r : Forall (closures (listed T n)) fs -> n <= m -> map snd bv = fs -> known (identify (Clo m bv g Nil f) g (at_ fs)) = false ->
  runs (fun fuel => expand fuel g f bv A n') r -> runs (fun fuel => expand fuel g (Clo m bv g Nil f) bv A n') r.
Proof.
  intros F L E K R. apply (runs_step (fun fuel => expand_closure fuel (Clo m bv g Nil f) bv A n')).
  { intros fuel. cbn [Expander.expand]. rewrite (identify_ids _ g bv (at_ fs) (at_of bv fs E)), K. reflexivity. }
  apply (runs_step (fun fuel => expand fuel g f bv A n')); [|exact R]. intros fuel. cbn [Expander.expand_closure]. rewrite same_scope_refl. reflexivity.
Qed.

Lemma PE_set env q v x cv c : syntax env q k_set -> is_id v = true -> kind env v = None -> denotes env v cv -> PE env x c -> PE env (flist [q; v; x]) (CSet cv c).
Proof.
  intros S I K D IH bv dict n al T G (Oq & Ov & Ox & _). pose proof (syntax_head _ _ _ _ _ _ q k_set G Oq S) as H.
  destruct (expand_variable env (map snd bv) dict n al T G v cv bv eq_refl I Ov K D) as (Rv & Sv & _). destruct (variable_image _ _ _ _ _ _ G v cv I Ov K D) as ((Ii & _) & _).
  destruct (IH bv dict n al T G Ox) as (y & n' & L & R & Sy & _). exists (flist [q; image dict v; y]), n'. split; [exact L|]. split.
  { eapply runs_step; [intros fuel; apply (expand_head dict _ q _ bv n _ eq_refl H)|].
    apply (runs_step (fun fuel => let '(a, A, n) := convert q (A1 dict) n in bind (operand fuel g (flist [v; x]) bv A n) (fun '(d, A, n) => Ok (Pair a d, A, n)))); [reflexivity|].
    rewrite (convert_fixed dict q n) by apply H. eapply runs_bind; [eapply operand_cons; [exact Rv|]; eapply operand_cons; [exact R|]; apply operand_nil|]. apply runs_ret. }
  split; [apply C_set; auto|]. intros _. eapply syntax_stops; [apply H|reflexivity].
Qed.
Lemma PE_lambda env q formals xs cs : syntax env q k_lambda -> formals_ok formals -> Forall (careful_variable env) (formal_names formals) -> PB (formals :: env) xs cs ->
  PE env (Pair q (Pair formals xs)) (CLambda (required formals) (has_rest formals) cs).
Proof.
  intros Sq Fo Cv IH bv dict n al T G (Oq & Of & Ox). pose proof (syntax_head _ _ _ _ _ _ q k_lambda G Oq Sq) as H.
  destruct (convert_formals_converted bv _ formals eq_refl Fo dict n T (obeys_listed _ _ _ _ Of)) as (formals' & dict' & n1 & new & T' & Ec & C).
  pose proof (good_formals _ _ _ _ _ _ _ _ _ _ _ _ G Fo Of Cv C) as G'. pose proof (c_le _ _ _ _ _ _ _ _ _ _ C) as Le.
  destruct (IH ((n1, formals') :: bv) dict' (S n1) (new ++ al) T' G' (obeys_formals _ _ _ _ _ _ _ _ _ _ _ _ C Ox)) as (ys & n' & L & R & Sy).
  exists (Pair q (Pair formals' ys)), n'. split; [lia|]. split.
  { eapply runs_step; [intros fuel; apply (expand_head dict _ q _ bv n _ eq_refl H)|].
    apply (runs_step (fun fuel => let '(formals, A', n) := convert_formals formals bv (A1 dict) n in
      bind (body fuel g xs ((n, formals) :: bv) A' (S n)) (fun '(b, A', n) => let '(a, A, n) := convert q (unscope (A1 dict) A') n in Ok (Pair a (Pair formals b), A, n)))); [reflexivity|].
    rewrite Ec. eapply runs_bind; [exact R|]. cbn [unscope A1 pop]. change [Alpha [] g Nil dict] with (A1 dict). rewrite (convert_fixed dict q n') by apply H. apply runs_ret. }
  split; [|intros _; eapply syntax_stops; [apply H|reflexivity]]. change (required formals) with (len formals); change (has_rest formals) with (improper formals); rewrite <- (c_len _ _ _ _ _ _ _ _ _ _ C), <- (c_improper _ _ _ _ _ _ _ _ _ _ C). apply C_lambda; [exact H| |].
  + apply unrenamed_of. intros s Rn. apply (c_renamed _ _ _ _ _ _ _ _ _ _ C s 0 Rn).
  + apply (settled_smaller dict dict' (smaller_converted _ _ _ _ _ _ _ _ _ _ C) _). exact Sy.
Qed.
(** *** Internal definitions *)
Lemma core_syntax env n k id : (exists c, assq k (second core) = Some c /\ content c = Syntax k) -> Forall (closures (fun c => id_of c < n)) env -> n <= id -> syntax env (Clo id [] core Nil (Sym k)) k.
Proof.
  intros (c & A & C) F L. split; [reflexivity|]. unfold ExpanderSpec.kind. rewrite (place_fresh env n id) by auto. unfold ExpanderSpec.keyword_content. cbn. change @bound with @assq. rewrite A, C. reflexivity.
Qed.
Inductive PD (env o : list form) : form -> form -> list code -> Prop :=
| PD_nil : PD env o Nil Nil []
| PD_variable q v x ds vs c cs : syntax o q k_define -> is_id v = true -> PE env x c -> PD env o ds vs cs -> PD env o (Pair (flist [q; v; x]) ds) (Pair v vs) (c :: cs)
| PD_procedure q v formals xs ds vs c cs : syntax o q k_define -> is_id v = true -> formals_ok formals -> Forall (careful_variable env) (formal_names formals) ->
    PB (formals :: env) xs c -> PD env o ds vs cs -> PD env o (Pair (Pair q (Pair (Pair v formals) xs)) ds) (Pair v vs) (CLambda (required formals) (has_rest formals) c :: cs).
Definition name_of (a : form) : form := match a with Pair v _ => v | v => v end.
Definition spec_of (args : form) (n : nat) : form * nat :=
  match car args with
  | Pair v formals => (flist [v; Pair (Clo n [] core Nil (Sym k_lambda)) (Pair formals (cdr args))], S n)
  | _ => (args, n)
  end.
Fixpoint pass (ds : form) (specs : list form) (n : nat) : list form * nat :=
  match ds with Pair d ds => let '(sp, n) := spec_of (cdr d) n in pass ds (sp :: specs) n | _ => (specs, n) end.
Inductive are_defs (bv : scope) : form -> form -> Prop :=
| AD_nil : are_defs bv Nil Nil
| AD_cons q args ds v vs : is_id q = true -> keyword_of (identify q g bv) = KSyntax k_define -> name_of (car args) = v -> is_id v = true -> are_defs bv ds vs -> are_defs bv (Pair (Pair q args) ds) (Pair v vs).
Lemma head_at dict bv q K : head dict (map snd bv) q K -> keyword_of (identify q g bv) = K.
Proof. intros (_ & _ & _ & H). rewrite (identify_ids q g bv (at_ (map snd bv)) (at_of bv _ eq_refl)). apply H, outer_refl. Qed.
Lemma PD_defs env bv dict n al T env' ds vs cs : good env (map snd bv) dict n al T -> PD env' env ds vs cs -> obeys T n al ds -> are_defs bv ds vs.
Proof.
  intros G. induction 1 as [|q v x ds vs c cs Sq Iv P D IH|q v formals xs ds vs c cs Sq Iv Fo Cv P D IH]; intros O; constructor; auto; try (apply IH, O); try apply Sq.
  - eapply head_at, (syntax_head _ _ _ _ _ _ q k_define G (proj1 (proj1 O)) Sq).
  - destruct v; try discriminate Iv; reflexivity.
  - eapply head_at, (syntax_head _ _ _ _ _ _ q k_define G (proj1 (proj1 O)) Sq).
Qed.
Lemma sweep_define q args rest bv cur A n x0 formals specs v fuel : is_id q = true -> keyword_of (identify q g bv) = KSyntax k_define -> name_of (car args) = v ->
  sweep (S fuel) g x0 (Pair (Pair q args) rest) bv cur A n formals specs =
  let '(sp, n) := spec_of args n in
  if memq v formals then sweep fuel g x0 rest bv cur A n formals (Pair sp specs)
  else sweep fuel g x0 x0 bv ((n, append formals (Pair v Nil)) :: bv) A (S n) (append formals (Pair v Nil)) Nil.
Proof.
  intros I K N. cbn [Expander.sweep]. rewrite I, K. cbn [k_define k_begin Nat.eqb]. unfold spec_of. destruct (car args) eqn:Ea; cbn in N; subst v; reflexivity.
Qed.
Lemma sweep_pass bv ds vs : are_defs bv ds vs -> forall rest cur A n x0 formals specs r, (forall v, In v (formal_names vs) -> memq v formals = true) ->
  runs (fun fuel => sweep fuel g x0 rest bv cur A (snd (pass ds specs n)) formals (flist (fst (pass ds specs n)))) r ->
  runs (fun fuel => sweep fuel g x0 (append ds rest) bv cur A n formals (flist specs)) r.
Proof.
  induction 1 as [|q args ds v vs I K N Iv D IH]; intros rest cur A n x0 formals specs r M R; [exact R|]. cbn [append]. cbn [pass cdr] in R.
  eapply runs_step; [intros fuel; apply (sweep_define q args _ bv cur A n x0 formals (flist specs) v fuel I K N)|]. destruct (spec_of args n) as [sp n1].
  rewrite (M v (or_introl eq_refl)). apply (IH rest cur A n1 x0 formals (sp :: specs) r); [|exact R]. intros w Hw. apply M. right. exact Hw.
Qed.
Lemma are_defs_append bv d1 p d2 r : are_defs bv d1 p -> are_defs bv d2 r -> are_defs bv (append d1 d2) (append p r).
Proof. induction 1; intros D; [exact D|]. cbn [append]. constructor; auto. Qed.
Lemma append_assoc' bv d1 p : are_defs bv d1 p -> (forall x y, append (append d1 x) y = append d1 (append x y)) /\ (forall x y, append (append p x) y = append p (append x y)) /\ append p Nil = p /\ append d1 Nil = d1.
Proof. induction 1 as [|? ? ? ? ? ? ? ? ? ? (IH1 & IH2 & IH3 & IH4)]; repeat split; intros; cbn; rewrite ?IH1, ?IH2, ?IH3, ?IH4; reflexivity. Qed.
Lemma names_memq bv d p : are_defs bv d p -> forall v, In v (formal_names p) -> memq v p = true.
Proof.
  induction 1 as [|q args ds v vs I K N Iv D IH]; intros w Hw; [destruct Hw|]. cbn [memq]. destruct Hw as [<-|Hw]; [|rewrite (IH w Hw); apply orb_true_r].
  destruct v; try discriminate Iv; cbn; rewrite Nat.eqb_refl; reflexivity.
Qed.
Lemma memq_spot v f j : spot v f j = None -> memq v f = false.
Proof. destruct (memq v f) eqn:M; [|reflexivity]. intros H. destruct (spot_memq v f j M H). Qed.
Lemma different_fresh bv d p : are_defs bv d p -> forall v r, different (append p (Pair v r)) -> memq v p = false.
Proof.
  induction 1 as [|q args ds w vs I K N Iv D IH]; intros v r H; [reflexivity|]. cbn [append different] in H. destruct H as [H1 H2]. cbn [memq]. rewrite (IH v r H2), orb_false_r.
  clear -H1 D. revert H1. generalize 0. induction D as [|q' args' ds' u us I' K' N' Iv' D' IH']; intros j H1; cbn [append spot] in H1; change identical with same in H1.
  - destruct (same v w); [discriminate H1|reflexivity].
  - destruct (same u w); [discriminate H1|]. apply (IH' _ H1).
Qed.
Lemma pass_le d : forall sp n, n <= snd (pass d sp n).
Proof.
  induction d as [|k|s|a _ d IH|id E0 g0 fr _ f _|key _ t E0 g0]; intros sp n; cbn [pass]; try apply le_n. destruct (spec_of (cdr a) n) as [sp' n'] eqn:E. specialize (IH (sp' :: sp) n').
  assert (n <= n'); [|lia]. unfold spec_of in E. destruct (car (cdr a)); injection E as <- <-; lia.
Qed.
Lemma sweep_restart bv d2 r : are_defs bv d2 r -> forall d1 p xs A cur n, are_defs bv d1 p -> different (append p r) -> (is_pair p = true -> exists m, cur = (m, p) :: bv) -> is_pair (append p r) = true ->
  exists m n1, n <= n1 /\ (is_pair d2 = true -> S n <= n1) /\
   (forall res, runs (fun fuel => sweep fuel g (append (append d1 d2) xs) xs bv ((m, append p r) :: bv) A (snd (pass (append d1 d2) [] n1)) (append p r) (flist (fst (pass (append d1 d2) [] n1)))) res ->
    runs (fun fuel => sweep fuel g (append (append d1 d2) xs) (append (append d1 d2) xs) bv cur A n p Nil) res).
Proof.
  induction 1 as [|q args ds v vs I K N Iv D IH]; intros d1 p xs A cur n D1 Df Cur Pp; destruct (append_assoc' bv d1 p D1) as (E1 & E2 & E3 & E4).
  - rewrite E3, E4 in *. destruct (Cur Pp) as (m & ->). exists m, n. split; [lia|]. split; [discriminate|]. intros res R. apply (sweep_pass bv d1 p D1 xs _ A n _ p [] res); [apply (names_memq bv d1 p D1)|exact R].
  - set (n2 := snd (pass d1 [] n)). set (n3 := snd (spec_of args n2)).
    assert (L3 : n2 <= n3) by (unfold n3, spec_of; destruct (car args); cbn; lia). pose proof (pass_le d1 [] n) as L2. fold n2 in L2.
    assert (D1' : are_defs bv (append d1 (Pair (Pair q args) Nil)) (append p (Pair v Nil))) by (apply are_defs_append; [exact D1|constructor; auto; constructor]).
    destruct (IH (append d1 (Pair (Pair q args) Nil)) (append p (Pair v Nil)) xs A ((n3, append p (Pair v Nil)) :: bv) (S n3) D1') as (m & n1 & Ln & _ & R).
    + rewrite E2. exact Df.
    + intros _. eexists. reflexivity.
    + rewrite E2. exact Pp.
    + rewrite E2 in R. cbn [append] in R. rewrite !(E1 (Pair (Pair q args) Nil) ds) in R. cbn [append] in R. exists m, n1. split; [lia|]. split; [lia|]. intros res R'. specialize (R res R').
      set (x0 := append (append d1 (Pair (Pair q args) ds)) xs) in *. assert (Ex : x0 = append d1 (Pair (Pair q args) (append ds xs))) by (unfold x0; rewrite E1; reflexivity).
      refine (eq_ind _ (fun z => runs (fun fuel => sweep fuel g x0 z bv cur A n p Nil) res) _ _ (eq_sym Ex)). apply (sweep_pass bv d1 p D1 _ cur A n x0 p [] res); [apply (names_memq bv d1 p D1)|].
      eapply runs_step; [intros fuel; apply (sweep_define q args _ bv cur A _ x0 p _ v fuel I K N)|]. fold n2. unfold n3 in R. destruct (spec_of args n2) as [sp n4]. cbn [snd] in R.
      rewrite (different_fresh bv d1 p D1 v vs Df). exact R.
Qed.
Lemma Forall2_impl {X Y} (P Q : X -> Y -> Prop) l l' : (forall x y, P x y -> Q x y) -> Forall2 P l l' -> Forall2 Q l l'.
Proof. intros H. induction 1; constructor; auto. Qed.
Lemma Forall2_length {X Y} (P : X -> Y -> Prop) l l' : Forall2 P l l' -> length l = length l'.
Proof. induction 1; cbn; congruence. Qed.
(** The assignments of the variables *)
Definition set_ready (dict : list (nat * form)) (fs : list form) (N : nat) (spec : form) (c : code) : Prop :=
  forall id, N <= id -> ready dict fs (Pair (Clo id [] core Nil (Sym k_set)) spec) (S id) c.
Lemma swept_assignments dict fs N l codes : Forall2 (set_ready dict fs N) l codes -> forall seq cs n, N <= n -> swept dict fs cs n seq ->
  exists seq' n', Expander.assignments (flist l) seq n = (seq', n') /\ n <= n' /\ swept dict fs (rev codes ++ cs) n' seq'.
Proof.
  induction 1 as [|spec c l codes R F IH]; intros seq cs n L W; [exists seq, n; auto|]. cbn [flist Expander.assignments default_rename].
  destruct (IH (Pair (Pair (Clo n [] core Nil (Sym k_set)) spec) seq) (c :: cs) (S n)) as (seq' & n' & E & L' & W'); [lia|apply swept_stop; [apply R, L|apply (swept_mono _ _ _ n); [lia|exact W]]|].
  exists seq', n'. split; [exact E|]. split; [lia|]. cbn [rev]. rewrite <- app_assoc. exact W'.
Qed.
Section Rows.
  Variables (env' fs' : list form) (vs : form) (env : list form) (dict : list (nat * form)) (n : nat) (al : list nat) (T : table).
  Hypothesis E' : env' = vs :: env.
  Hypothesis G : good env' fs' dict n al T.
  Lemma row_ready v e c N T' j : n <= N -> agree n T T' -> good env' fs' dict N al T' -> obeys T' N al v -> obeys T' N al e -> PE env' e c -> is_id v = true -> spot v vs 0 = Some (j, false) ->
    set_ready dict fs' N (flist [v; e]) (CSet (CLocal 0 j) c).
  Proof.
    intros L A G' Ov Oe P Iv Sp id Li. set (T2 := update T' id (core, k_set)).
    assert (G2 : good env' fs' dict (S id) al T2). { eapply good_mono; [| |exact G']; [lia|]. intros i Hi. unfold T2, update. destruct (i =? id) eqn:Ei; [apply Nat.eqb_eq in Ei; lia|reflexivity]. }
    assert (Oc : obeys T2 (S id) al (Clo id [] core Nil (Sym k_set))).
    { split; [exists id, core, k_set; repeat split; [lia|unfold T2, update; rewrite Nat.eqb_refl; reflexivity]|]. cbn. intros H. pose proof (g_al _ _ _ _ _ _ G' id H). lia. }
    assert (Mono : forall x, obeys T' N al x -> obeys T2 (S id) al x).
    { intros x. apply obeys_mono; [lia| |auto]. intros i Hi. unfold T2, update. destruct (i =? id) eqn:Ei; [apply Nat.eqb_eq in Ei; lia|reflexivity]. }
    pose proof (core_syntax env' N k_set id core_set (env_ids _ _ _ _ (g_env _ _ _ _ _ _ G')) Li) as Sy.
    assert (Pl : place v env' 0 = Some (0, j, false)) by (rewrite E'; cbn [place]; rewrite Sp; reflexivity).
    assert (Pe : PE env' (flist [Clo id [] core Nil (Sym k_set); v; e]) (CSet (CLocal 0 j) c)).
    { apply PE_set; auto; [unfold ExpanderSpec.kind|unfold ExpanderSpec.denotes]; rewrite Pl; reflexivity. }
    assert (O2 : obeys T2 (S id) al (flist [Clo id [] core Nil (Sym k_set); v; e])) by (split; [exact Oc|split; [apply Mono, Ov|split; [apply Mono, Oe|exact I]]]).
    assert (Ex : expression second content g env' (flist [Clo id [] core Nil (Sym k_set); v; e])) by (intros _; rewrite (proj2 Sy); reflexivity).
    split; [eapply expression_stops; eauto|]. intros bv n1 <- L1. destruct (Pe bv dict n1 al T2 (good_later _ _ _ _ _ _ _ L1 G2) (obeys_later _ _ _ _ _ L1 O2)) as (y & n2 & L2 & R & S & St). exists y, n2. auto.
  Qed.
  Lemma set_ready_mono N N' spec c : N <= N' -> set_ready dict fs' N spec c -> set_ready dict fs' N' spec c.
  Proof. intros L H id Li. apply H. lia. Qed.
  Fixpoint spots (j : nat) (ws : form) : Prop := match ws with Pair v ws => spot v vs 0 = Some (j, false) /\ spots (S j) ws | _ => True end.
  Lemma pass_rows ds ws cs : PD env' env ds ws cs -> obeys T n al ds -> forall m j specs codes N, n <= m -> spots j ws -> Forall2 (set_ready dict fs' N) specs codes -> N <= m ->
    m <= snd (pass ds specs m) /\ Forall2 (set_ready dict fs' (snd (pass ds specs m))) (fst (pass ds specs m)) (rev (ExpanderSpec.assignments j cs) ++ codes).
  Proof.
    induction 1 as [|q v x ds ws c cs Sq Iv P D IH|q v formals xs ds ws c cs Sq Iv Fo Cv P D IH]; intros O m j specs codes N L Sp F LN.
    - cbn. split; [lia|]. eapply Forall2_impl; [|exact F]. intros. eapply set_ready_mono; eauto.
    - destruct O as ((Oq & Ov & Ox & _) & Od). destruct Sp as [Sv Sp]. cbn [pass cdr flist spec_of car].
      assert (Es : spec_of (flist [v; x]) m = (flist [v; x], m)) by (destruct v; try discriminate Iv; reflexivity). cbn [flist] in Es. rewrite Es.
      destruct (IH Od m (S j) (flist [v; x] :: specs) (CSet (CLocal 0 j) c :: codes) m L Sp) as [L1 F1].
      + constructor; [|eapply Forall2_impl; [|exact F]; intros; eapply set_ready_mono; eauto].
        apply (row_ready v x c m T j L (fun i _ => eq_refl) (good_later _ _ _ _ _ _ _ L G) (obeys_later _ _ _ _ _ L Ov) (obeys_later _ _ _ _ _ L Ox) P Iv Sv).
      + apply le_n.
      + split; [exact L1|]. cbn [ExpanderSpec.assignments rev]. rewrite <- app_assoc. exact F1.
    - destruct O as ((Oq & (Ov & Of) & Ox) & Od). destruct Sp as [Sv Sp]. cbn [pass cdr spec_of car].
      set (e := Pair (Clo m [] core Nil (Sym k_lambda)) (Pair formals xs)). set (T2 := update T m (core, k_lambda)).
      destruct (IH Od (S m) (S j) (flist [v; e] :: specs) (CSet (CLocal 0 j) (CLambda (required formals) (has_rest formals) c) :: codes) (S m)) as [L1 F1]; auto.
      + constructor; [|eapply Forall2_impl; [|exact F]; intros; eapply set_ready_mono; [|eassumption]; lia].
        assert (A2 : agree n T T2) by (intros i Hi; unfold T2, update; destruct (i =? m) eqn:Ei; [apply Nat.eqb_eq in Ei; lia|reflexivity]).
        assert (G2 : good env' fs' dict (S m) al T2) by (eapply good_mono; [| |exact G]; [lia|exact A2]).
        assert (Mono : forall x, obeys T n al x -> obeys T2 (S m) al x) by (intros x; apply obeys_mono; [lia|exact A2|auto]).
        apply (row_ready v e _ (S m) T2 j); auto.
        * split; [|split; apply Mono; auto]. split; [exists m, core, k_lambda; repeat split; [lia|unfold T2, update; rewrite Nat.eqb_refl; reflexivity]|]. cbn. intros H. pose proof (g_al _ _ _ _ _ _ G m H). lia.
        * apply PE_lambda; auto. apply (core_syntax env' n); auto. eapply env_ids, G.
      + split; [lia|]. cbn [ExpanderSpec.assignments rev]. rewrite <- app_assoc. exact F1.
  Qed.
End Rows.
Lemma append_obeys T n al xs ys : obeys T n al (append xs ys) -> obeys T n al ys.
Proof. induction xs; cbn; auto. intros [_ H]. auto. Qed.
Lemma defs_obeys bv ds vs : are_defs bv ds vs -> forall ys T n al, obeys T n al (append ds ys) -> obeys T n al ds /\ obeys T n al vs.
Proof.
  induction 1 as [|q args ds v vs I K N Iv D IH]; intros ys T n al O; [split; exact Logic.I|]. destruct O as [Oa Od]. destruct (IH _ _ _ _ Od) as [H1 H2]. split; [split; auto|]. split; [|exact H2].
  destruct Oa as [_ Oa]. subst v. clear -Oa. destruct args as [| | |a d| |]; try exact Logic.I. cbn [car]. destruct Oa as [Oa _]. destruct a; try exact Oa. apply Oa.
Qed.
Lemma defs_proper bv ds vs : are_defs bv ds vs -> improper vs = false /\ is_pair vs = is_pair ds.
Proof. induction 1 as [|q args ds v vs I K N Iv D [IH _]]; [split; reflexivity|]. split; [exact IH|reflexivity]. Qed.
Lemma spots_later vs : forall ws j, spots vs j ws -> forall v, (forall w, In w (formal_names ws) -> same v w = false) -> improper ws = false -> spots (Pair v vs) (S j) ws.
Proof.
  induction ws as [|k|s|a _ d IH|id E0 g0 fr _ f _|key _ t E0 g0]; intros j H v N P; try exact I. destruct H as [H1 H2]. cbn [spots spot]. change identical with same. split.
  - rewrite (N a (or_introl eq_refl)). clear -H1. assert (G : forall f j k r, spot a f j = Some (k, r) -> spot a f (S j) = Some (S k, r)); [|apply G, H1].
    clear. induction f as [|k|s|b _ d IH|id E0 g0 fr _ f _|key _ t E0 g0]; intros j i r; cbn [spot]; change identical with same; try (destruct (same _ a); congruence).
    destruct (same b a); [congruence|]. apply IH.
  - apply IH; auto. intros w Hw. apply N. right. exact Hw.
Qed.
Lemma different_spots bv ds vs : are_defs bv ds vs -> different vs -> spots vs 0 vs.
Proof.
  induction 1 as [|q args ds v vs I K N Iv D IH]; intros Df; [exact Logic.I|]. destruct Df as [D1 D2]. cbn [spots]. split.
  - cbn [spot]. change identical with same. destruct v; try discriminate Iv; cbn; rewrite Nat.eqb_refl; reflexivity.
  - apply spots_later; [apply IH, D2| |apply (defs_proper bv ds vs D)]. intros w Hw. pose proof (memq_spot v vs 0 D1) as M. destruct (same v w) eqn:Sw; [|reflexivity].
    rewrite <- M. clear -D Hw Sw. symmetry. induction D as [|q' args' ds' u us I' K' N' Iv' D' IH']; [destruct Hw|]. cbn [memq]. destruct Hw as [->|Hw]; [rewrite Sw; reflexivity|]. rewrite (IH' Hw). apply orb_true_r.
Qed.
Lemma units_operand k bv A n : runs (fun fuel => operand fuel g (units k) bv A n) (units k, A, n).
Proof. induction k as [|k IH]; [apply operand_nil|]. cbn [units]. eapply operand_cons; [|exact IH]. step. apply runs_ret. Qed.
Lemma units_settled dict fs k : settled_all dict fs (units k) (repeat (CConst Nil) k).
Proof. induction k as [|k IH]; cbn [units repeat]; [apply CA_nil|apply CA_cons; [apply C_nil|exact IH]]. Qed.
Lemma swept_again dict fs cs n seq : (match cs with [] => seq = Nil | c :: cs => exists a d, seq = Pair a d /\ ready dict fs a n c /\ swept dict fs cs n d end) -> swept dict fs cs n seq.
Proof. destruct cs as [|c cs]; [intros ->; apply swept_nil|]. intros (a & d & -> & R & W). apply swept_stop; auto. Qed.
Lemma body_definitions env ds vs xs inits cs : is_pair ds = true -> PD (vs :: env) env ds vs inits ->
  (forall fs dict n al T, good (vs :: env) fs dict n al T -> obeys T n al xs -> swept dict fs cs n xs) -> formals_ok vs ->
  (true = true -> Forall (fun v => local_free v env /\ not_macro v) (formal_names vs)) ->
  PB env (join ds xs) [CCall (CLambda (required vs) false (ExpanderSpec.assignments 0 inits ++ cs)) (repeat (CConst Nil) (required vs)) (CConst Nil)].
Proof.
  intros Pd D Items Fo Cv bv dict n al T G O. specialize (Cv eq_refl). change join with append in *.
  assert (Od : obeys T n al ds) by (clear -D O; induction D as [|? ? ? ? ? ? ? ? ? ? ? IH|? ? ? ? ? ? ? ? ? ? ? ? ? ? IH]; [exact I| |]; (destruct O as [O1 O2]; split; [exact O1|apply IH, O2])).
  pose proof (PD_defs env bv dict n al T _ _ _ _ G D Od) as Ad. destruct (defs_obeys bv ds vs Ad _ _ _ _ O) as [_ Ov]. pose proof (append_obeys _ _ _ _ _ O) as Ox. destruct (defs_proper bv ds vs Ad) as [Im Pp].
  (* the scope of the body *)
  destruct (convert_formals_converted bv _ vs eq_refl Fo dict n T (obeys_listed _ _ _ _ Ov)) as (vs' & dict' & n' & new & T' & Ec & C).
  assert (Free : Forall (fun v => local_free v (map snd bv) /\ not_macro v) (formal_names vs)).
  { eapply Forall_impl; [|exact Cv]. intros v [Lf Nm]. split; [|exact Nm]. destruct v; try exact I. cbn in Lf |- *. rewrite (g_memq _ _ _ _ _ _ G). exact Lf. }
  destruct (c_same _ _ _ _ _ _ _ _ _ _ C) as (-> & -> & ->); [intros v Hv; rewrite Forall_forall in Free; apply (Free v Hv)|].
  assert (Cv' : Forall (careful_variable env) (formal_names vs)) by (eapply Forall_impl; [|exact Cv]; intros v [_ X]; destruct v; auto; intros _; exact X).
  pose proof (good_formals _ _ _ _ _ _ _ _ _ _ _ _ G Fo Ov Cv' C) as G'. set (fs := map snd bv) in *. set (fs' := vs :: fs) in *.
  (* the passes over the definitions *)
  destruct (append_assoc' bv ds vs Ad) as (_ & _ & Ev & Ed).
  assert (Rest : exists m n1, n <= n1 /\ (is_pair ds = true -> S n <= n1) /\
    (forall res, runs (fun fuel => sweep fuel g (append ds xs) xs bv ((m, vs) :: bv) (A1 dict) (snd (pass ds [] n1)) vs (flist (fst (pass ds [] n1)))) res ->
     runs (fun fuel => sweep fuel g (append ds xs) (append ds xs) bv bv (A1 dict) n Nil Nil) res)).
  { apply (sweep_restart bv ds vs Ad Nil Nil xs (A1 dict) bv n (AD_nil bv)); [apply Fo|discriminate|cbn [append]; rewrite Pp; exact Pd]. }
  destruct Rest as (m & n1 & _ & L1 & Rest). specialize (L1 Pd).
  destruct (pass_rows (vs :: env) fs' vs env dict (S n) (new ++ al) T' eq_refl G' ds vs inits D (obeys_formals _ _ _ _ _ _ _ _ _ _ _ _ C Od) n1 0 [] [] n1 L1) as [L2 Rows];
    [apply (different_spots bv ds vs Ad), Fo|constructor|apply le_n|]. rewrite app_nil_r in Rows.
  set (n2 := snd (pass ds [] n1)) in *. set (specs := fst (pass ds [] n1)) in *.
  assert (W : swept dict fs' cs n2 xs) by (apply (Items fs' dict n2 (new ++ al) T'); [eapply good_later; [|exact G']; lia|eapply obeys_later; [|apply (obeys_formals _ _ _ _ _ _ _ _ _ _ _ _ C Ox)]; lia]).
  assert (Sw : exists seq n3, n2 <= n3 /\ runs (fun fuel => sweep fuel g (append ds xs) (append ds xs) bv bv (A1 dict) n Nil Nil) (flist specs, seq, (m, vs) :: bv, A1 dict, n3) /\ swept dict fs' cs n3 seq).
  { assert (Out : outer fs' (map snd bv)) by (right; exists vs; split; [reflexivity|exact Free]).
    assert (X : exists seq n3, n2 <= n3 /\ runs (fun fuel => sweep fuel g (append ds xs) xs bv ((m, vs) :: bv) (A1 dict) n2 vs (flist specs)) (flist specs, seq, (m, vs) :: bv, A1 dict, n3) /\ swept dict fs' cs n3 seq).
    { assert (Wx := W). destruct cs as [|c cs]; destruct (Wx (append ds xs) bv ((m, vs) :: bv) n2 vs (flist specs) Out eq_refl (le_n _)) as (seq & n3 & L3 & R & Sq); exists seq, n3; (split; [exact L3|]); (split; [exact R|]);
        apply swept_again; exact Sq. }
    destruct X as (seq & n3 & L3 & R & Sq). exists seq, n3. split; [exact L3|]. split; [apply Rest, R|exact Sq]. }
  destruct Sw as (seq & n3 & L3 & Sw & Ws).
  destruct (swept_assignments dict fs' n2 specs _ Rows seq cs n3 L3 Ws) as (seq2 & n4 & Ea & L4 & W4). rewrite rev_involutive in W4.
  (* the expression made of the body *)
  set (l := Clo n4 [] core Nil (Sym k_lambda)). set (T2 := update T n4 (core, k_lambda)).
  assert (A2 : agree n T T2) by (intros i Hi; unfold T2, update; destruct (i =? n4) eqn:Ei; [apply Nat.eqb_eq in Ei; lia|reflexivity]).
  assert (G2 : good env fs dict (S n4) al T2) by (eapply good_mono; [| |exact G]; [lia|exact A2]).
  assert (Hl : head dict fs l (KSyntax k_lambda)).
  { apply (syntax_head env fs dict (S n4) al T2 l k_lambda G2).
    - split; [exists n4, core, k_lambda; repeat split; [lia|unfold T2, update; rewrite Nat.eqb_refl; reflexivity]|]. cbn. intros H. pose proof (g_al _ _ _ _ _ _ G n4 H). lia.
    - apply (core_syntax env n); [exact core_lambda|eapply env_ids, G|lia]. }
  assert (Un : unrenamed fs vs) by (apply unrenamed_of; intros s Rn; apply (c_renamed _ _ _ _ _ _ _ _ _ _ C s 0 Rn)).
  destruct (swept_body dict fs' _ n4 seq2 W4 ((S n4, vs) :: bv) (S (S n4)) eq_refl) as (ys & n5 & L5 & Rb & Sb); [lia|].
  exists (flist [Pair (Pair l (Pair vs ys)) (units (len vs))]), n5. split; [lia|]. split.
  - apply (runs_step (fun fuel => bind (sweep fuel g (append ds xs) (append ds xs) bv bv (A1 dict) n Nil Nil) (fun r => let '(specs, sequence, cur, A, n) := r in
      match specs with
      | Pair _ _ =>
        let formals := match cur with (_, f) :: _ => f | [] => Nil end in
        let '(sequence, n) := Expander.assignments specs sequence n in
        let '(l, n) := default_rename k_lambda n in
        expand fuel g (flist [Pair (Pair l (Pair formals sequence)) (units (len formals))]) bv A n
      | _ =>
        match sequence with
        | Pair a d => bind (expand fuel g a bv A n) (fun '(a, A, n) => bind (body fuel g d bv A n) (fun '(d, A, n) => Ok (Pair a d, A, n)))
        | _ => expand fuel g sequence bv A n
        end
      end))); [reflexivity|].
    eapply runs_bind; [exact Sw|]. cbv beta iota.
    assert (Ne : exists a d, flist specs = Pair a d).
    { destruct specs as [|a d]; [|exists a, (flist d); reflexivity]. exfalso. apply Forall2_length in Rows. rewrite rev_length in Rows. destruct D; [discriminate Pd| |]; cbn in Rows; discriminate Rows. }
    destruct Ne as (a & d & Ne). rewrite Ne in Ea |- *. cbn [default_rename]. rewrite Ea. fold l.
    assert (R1 : runs (fun fuel => expand fuel g (Pair l (Pair vs seq2)) bv (A1 dict) (S n4)) (Pair l (Pair vs ys), A1 dict, n5)).
    { eapply runs_step; [intros fuel; apply (expand_head dict fs l _ bv (S n4) _ eq_refl Hl)|].
      apply (runs_step (fun fuel => let '(formals, A', n) := convert_formals vs bv (A1 dict) (S n4) in
        bind (body fuel g seq2 ((n, formals) :: bv) A' (S n)) (fun '(b, A', n) => let '(a, A, n) := convert l (unscope (A1 dict) A') n in Ok (Pair a (Pair formals b), A, n)))); [reflexivity|].
      rewrite (Un bv (A1 dict) (S n4) eq_refl). eapply runs_bind; [exact Rb|]. apply runs_ret. }
    assert (R2 : runs (fun fuel => expand fuel g (Pair (Pair l (Pair vs seq2)) (units (len vs))) bv (A1 dict) (S n4)) (Pair (Pair l (Pair vs ys)) (units (len vs)), A1 dict, n5)).
    { apply (runs_step (fun fuel => expand_call fuel g (Pair (Pair l (Pair vs seq2)) (units (len vs))) bv (A1 dict) (S n4))); [reflexivity|]. step.
      eapply runs_bind; [exact R1|]. eapply runs_bind; [apply units_operand|]. apply runs_ret. }
    apply (runs_step (fun fuel => expand_call fuel g (flist [Pair (Pair l (Pair vs seq2)) (units (len vs))]) bv (A1 dict) (S n4))); [reflexivity|]. step.
    eapply runs_bind; [exact R2|]. eapply runs_bind; [apply operand_nil|]. apply runs_ret.
  - apply CB_cons; [|intros X; discriminate X|apply CB_nil]. change (required vs) with (len vs). apply C_call; [|apply units_settled]. rewrite <- Im. apply C_lambda; [exact Hl|exact Un|exact Sb].
Qed.
Theorem expander_correct : forall env,
  (forall x c, means env x c -> PE env x c) /\ (forall x c, all_mean env x c -> PA env x c) /\ (forall x c, specs_mean env x c -> PS env x c) /\
  (forall x c, body_means env x c -> PB env x c) /\ (forall x c, items_mean env x c -> PIs env x c) /\ (forall x c, item_means env x c -> PI env x c) /\
  (forall o ds vs cs, definitions_mean second content macro g true env o ds vs cs -> PD env o ds vs cs).
Proof.
  apply (means_mutind second content macro g true PE PA PS PB PIs PI PD).
  - (* variable *)
    intros env v c I K D bv dict n al T G O. destruct (expand_variable env (map snd bv) dict n al T G v c bv eq_refl I O K D) as (R & S & St).
    exists (image dict v), n. split; [lia|]. auto.
  - intros env bv dict n al T G O. exists Nil, n. split; [lia|]. split; [step; apply runs_ret|]. split; [apply C_nil|intros _; exact I].
  - intros env k bv dict n al T G O. exists (Atom k), n. split; [lia|]. split; [step; apply runs_ret|]. split; [apply C_atom|intros _; exact I].
  - (* quote *)
    intros env q x S Si bv dict n al T G O. pose proof (syntax_head _ _ _ _ _ _ q k_quote G (proj1 O) S) as H. exists (flist [q; x]), n. split; [lia|]. split.
    { eapply runs_step; [intros fuel; apply (expand_head dict _ q _ bv n _ eq_refl H)|]. step. apply runs_ret. }
    split; [rewrite (strip_quoted x (Si eq_refl)); apply C_quote, H|]. intros _. eapply syntax_stops; [apply H|reflexivity].
  - (* if *)
    intros env q xs cs S _ IH bv dict n al T G O. pose proof (syntax_head _ _ _ _ _ _ q k_if G (proj1 O) S) as H.
    destruct (IH bv dict n al T G (proj2 O)) as (ys & n' & L & R & Sy). exists (Pair q ys), n'. split; [exact L|]. split.
    { eapply runs_step; [intros fuel; apply (expand_head dict _ q _ bv n _ eq_refl H)|].
      apply (runs_step (fun fuel => let '(a, A, n) := convert q (A1 dict) n in bind (operand fuel g xs bv A n) (fun '(d, A, n) => Ok (Pair a d, A, n)))); [reflexivity|].
      rewrite (convert_fixed dict q n) by apply H. eapply runs_bind; [exact R|]. apply runs_ret. }
    split; [apply C_if; auto|]. intros _. eapply syntax_stops; [apply H|reflexivity].
  - (* begin *)
    intros env q xs cs S _ IH bv dict n al T G O. pose proof (syntax_head _ _ _ _ _ _ q k_begin G (proj1 O) S) as H.
    destruct (IH bv dict n al T G (proj2 O)) as (ys & n' & L & R & Sy). exists (Pair q ys), n'. split; [exact L|]. split.
    { eapply runs_step; [intros fuel; apply (expand_head dict _ q _ bv n _ eq_refl H)|]. step. eapply operand_cons; [|exact R]. apply (expand_var dict (map snd bv)); auto; [apply H|apply H|apply (head_known _ _ _ _ H)]. }
    split; [apply C_begin; auto|]. intros Ex. destruct S as [I K]. cbn in Ex. rewrite K in Ex. discriminate (Ex I).
  - (* set! *) intros. apply PE_set; auto.
  - (* lambda *) intros. apply PE_lambda; auto.
  - (* letrec *)
    intros env q specs xs inits cs Sq Fo Cv _ IHs _ IHb; rewrite variables_map_car in *; intros bv dict n al T G (Oq & Os & Ox). specialize (Cv eq_refl). pose proof (syntax_head _ _ _ _ _ _ q k_letrec G Oq Sq) as H.
    assert (Of : obeys T n al (map_car specs)). { clear -Os. induction specs; try exact I. destruct Os as [O1 O2]. split; [destruct specs1; try exact I; apply O1|apply IHspecs2, O2]. }
    destruct (convert_formals_converted bv _ (map_car specs) eq_refl Fo dict n T (obeys_listed _ _ _ _ Of)) as (formals' & dict' & n1 & new & T' & Ec & C).
    destruct (c_same _ _ _ _ _ _ _ _ _ _ C) as (-> & -> & ->).
    { intros v Hv. rewrite Forall_forall in Cv. destruct (Cv v Hv) as [Lf _]. destruct v; try exact I. cbn in Lf |- *. rewrite (g_memq _ _ _ _ _ _ G). exact Lf. }
    assert (Cv' : Forall (careful_variable env) (formal_names (map_car specs))) by (eapply Forall_impl; [|exact Cv]; intros v [_ X]; exact X).
    pose proof (good_formals _ _ _ _ _ _ _ _ _ _ _ _ G Fo Of Cv' C) as G'. set (bv' := (n, map_car specs) :: bv) in *.
    destruct (IHs bv' dict (S n) (new ++ al) T' G' (obeys_formals _ _ _ _ _ _ _ _ _ _ _ _ C Os)) as (specs' & n2 & L2 & R2 & S2 & Em).
    destruct (IHb bv' dict n2 (new ++ al) T' (good_later _ _ _ _ _ _ _ L2 G') (obeys_later _ _ _ _ _ L2 (obeys_formals _ _ _ _ _ _ _ _ _ _ _ _ C Ox))) as (ys & n3 & L3 & R3 & S3).
    exists (Pair q (Pair specs' ys)), n3. split; [lia|]. split.
    { eapply runs_step; [intros fuel; apply (expand_head dict _ q _ bv n _ eq_refl H)|].
      apply (runs_step (fun fuel => let '(formals, A, n) := convert_formals (map_car specs) bv (A1 dict) n in
        bind (binding_specs fuel g specs ((n, formals) :: bv) A (S n)) (fun '(specs, A, n') => bind (body fuel g xs ((n, formals) :: bv) A n') (fun '(b, A, n) => Ok (Pair q (Pair specs b), A, n))))); [reflexivity|].
      rewrite Ec. eapply runs_bind; [exact R2|]. eapply runs_bind; [exact R3|]. apply runs_ret. }
    split; [|intros _; eapply syntax_stops; [apply H|reflexivity]]. apply C_letrec; [exact H| |rewrite Em; exact S2|rewrite Em; exact S3].
    rewrite Em. apply unrenamed_of. intros s Rn. apply (c_renamed _ _ _ _ _ _ _ _ _ _ C s 0 Rn).
  - (* macro *)
    intros env q t g' xs tp c I K M N Hm IH bv dict n al T G O. specialize (N eq_refl).
    destruct (expand_macro env bv dict n al T q t g' xs tp G O I K M N) as (m & T' & L & G' & Of & Be & Bx & Fx & _ & Ex). specialize (Hm n Be Bx). specialize (IH n Be Bx).
    set (f := stands_for tp g' n) in *. assert (NoEx : forall y, expression second content g env (Pair q xs) -> stops (map snd bv) y) by (intros y X; cbn in X; rewrite K in X; destruct (X I)).
    destruct (clo_identify (map snd bv) T' m m bv f (g_fs _ _ _ _ _ _ G') (le_n _) eq_refl) as [Ei _].
    assert (Open : known (identify (Clo m bv g Nil f) g (at_ (map snd bv))) = false -> exists y n', n <= n' /\ runs (fun fuel => expand fuel g (Pair q xs) bv (A1 dict) n) (y, A1 dict, n') /\ settled dict (map snd bv) y c /\ (expression second content g env (Pair q xs) -> stops (map snd bv) y)).
    { intros Kf. destruct (IH bv dict (S m) al T' (good_later _ _ _ _ _ _ _ (le_S _ _ (le_n m)) G') (obeys_later _ _ _ _ _ (le_S _ _ (le_n m)) Of)) as (y & n' & L' & R & Sy & _).
      exists y, n'. split; [lia|]. split; [|auto]. eapply runs_step; [exact Ex|]. eapply open_closure; [apply G'|apply le_n|reflexivity|exact Kf|exact R]. }
    destruct (is_id f) eqn:If; [|apply Open; rewrite Ei; reflexivity].
    assert (Kf : kind env f = None /\ denotes env f c) by (inversion Hm; subst; try (rewrite <- H in If; discriminate If); try (rewrite <- H0 in If; discriminate If); try (rewrite <- H1 in If; discriminate If); auto).
    destruct Kf as [Kf Df]. destruct (closure_of_variable env _ dict m al T' m bv f c G' (le_n _) eq_refl If Of Fx Kf Df) as [[Kn Sy]|[Un _]]; [|apply Open, Un].
    exists (Clo m bv g Nil f), (S m). split; [lia|]. split; [|auto]. eapply runs_step; [exact Ex|]. apply (expand_var dict (map snd bv)); auto. exact Logic.I.
  - (* call *)
    intros env f xs c cs K Hf IHf _ IHx bv dict n al T G (Of & Ox). destruct (IHf bv dict n al T G Of) as (f' & n1 & L1 & R1 & S1 & _).
    destruct (IHx bv dict n1 al T (good_later _ _ _ _ _ _ _ L1 G) (obeys_later _ _ _ _ _ L1 Ox)) as (ys & n2 & L2 & R2 & S2). exists (Pair f' ys), n2. split; [lia|]. split.
    { eapply runs_step; [intros fuel; apply (expand_call_eq env (map snd bv) dict n al T G f xs bv eq_refl K Of)|]. step. eapply runs_bind; [exact R1|]. eapply runs_bind; [exact R2|]. apply runs_ret. }
    split; [apply C_call; auto|]. intros _. cbn. intros If o Ho. destruct (settled_id _ _ _ _ S1 If) as (_ & _ & _ & X). rewrite (X o Ho). exact I.
  - intros env bv dict n al T G O. exists Nil, n. split; [lia|]. split; [apply operand_nil|constructor].
  - intros env x xs c cs _ IHx _ IHxs bv dict n al T G (Ox & Oxs). destruct (IHx bv dict n al T G Ox) as (y & n1 & L1 & R1 & S1 & _).
    destruct (IHxs bv dict n1 al T (good_later _ _ _ _ _ _ _ L1 G) (obeys_later _ _ _ _ _ L1 Oxs)) as (ys & n2 & L2 & R2 & S2). exists (Pair y ys), n2. split; [lia|].
    split; [eapply operand_cons; eauto|constructor; auto].
  - intros env bv dict n al T G O. exists Nil, n. split; [lia|]. split; [step; apply runs_ret|]. split; [constructor|reflexivity].
  - intros env v x specs c cs _ IHx _ IHxs bv dict n al T G ((Ov & Ox & _) & Oxs). destruct (IHx bv dict n al T G Ox) as (y & n1 & L1 & R1 & S1 & _).
    destruct (IHxs bv dict n1 al T (good_later _ _ _ _ _ _ _ L1 G) (obeys_later _ _ _ _ _ L1 Oxs)) as (ys & n2 & L2 & R2 & S2 & Em). exists (Pair (flist [v; y]) ys), n2. split; [lia|].
    split; [step; eapply runs_bind; [exact R1|]; eapply runs_bind; [exact R2|]; apply runs_ret|]. split; [constructor; auto|cbn; rewrite Em; reflexivity].
  - (* body *)
    intros env xs cs _ (_ & IH & X) bv dict n al T G O. pose proof (IH (map snd bv) dict n al T G O Nil [] (swept_nil _ _ _)) as W. rewrite app_nil_r, X in W.
    eapply swept_body; [exact W|reflexivity|apply le_n].
  - (* definitions *) intros env ds vs xs inits cs Pd _ D _ (_ & IH & X) Fo Cv. apply (body_definitions env ds vs xs inits cs Pd D); auto. intros fs dict n al T G O. rewrite <- (app_nil_r cs), <- X. apply (IH fs dict n al T G O), swept_nil.
  - intros. exfalso. auto.
  - (* items *)
    intros env. split; [|split; [|reflexivity]].
    + intros bv dict n al T G O. exists Nil, n. split; [lia|]. split; [apply operand_nil|constructor].
    + intros fs dict n al T G O rest cs' W. exact W.
  - intros env x xs c cs _ [IHx IHx'] _ (IHxs & IHxs' & X). split; [|split; [|cbn; rewrite X; reflexivity]].
    + intros bv dict n al T G (Ox & Oxs). destruct (IHx bv dict n al T G Ox) as (y & n1 & L1 & R1 & S1).
      destruct (IHxs bv dict n1 al T (good_later _ _ _ _ _ _ _ L1 G) (obeys_later _ _ _ _ _ L1 Oxs)) as (ys & n2 & L2 & R2 & S2). exists (Pair y ys), n2. split; [lia|].
      split; [eapply operand_cons; eauto|constructor; auto].
    + intros fs dict n al T G (Ox & Oxs) rest cs' W. rewrite <- app_assoc. cbn [append]. eapply IHx'; eauto.
  - (* expression *)
    intros env x c Ex Hm IH. split.
    + intros bv dict n al T G O. destruct (IH bv dict n al T G O) as (y & n' & L & R & S & St). exists y, n'. split; [exact L|]. split; [exact R|]. constructor; auto.
    + intros fs dict n al T G O rest cs' W. apply swept_stop; [|exact W]. split.
      * destruct (is_id x) eqn:Ix; [|apply (expression_stops env fs dict n al T G x O Ix Ex)]. assert (Kx : kind env x = None /\ denotes env x c) by (inversion Hm; subst; try discriminate Ix; auto).
        destruct (variable_image env fs dict n al T G x c Ix O (proj1 Kx) (proj2 Kx)) as (_ & Kn & _). destruct x; try discriminate Ix; [exact I|exact Kn].
      * intros bv n1 <- L. destruct (IH bv dict n1 al T (good_later _ _ _ _ _ _ _ L G) (obeys_later _ _ _ _ _ L O)) as (y & n' & L' & R & S & St). exists y, n'. auto.
  - (* begin *)
    intros env q xs cs S _ (IH & IH' & _). split.
    + intros bv dict n al T G (Oq & Ox). pose proof (syntax_head _ _ _ _ _ _ q k_begin G Oq S) as H. destruct (IH bv dict n al T G Ox) as (ys & n' & L & R & Sy). exists (Pair q ys), n'. split; [exact L|]. split; [|constructor; auto].
      eapply runs_step; [intros fuel; apply (expand_head dict _ q _ bv n _ eq_refl H)|]. step. eapply operand_cons; [|exact R]. apply (expand_var dict (map snd bv)); auto; [apply H|apply H|apply (head_known _ _ _ _ H)].
    + intros fs dict n al T G (Oq & Ox) rest cs' W. pose proof (syntax_head _ _ _ _ _ _ q k_begin G Oq S) as H. eapply swept_step; [|eapply IH'; eauto]. intros. apply (sweep_begin dict fs); auto.
  - (* macro *)
    intros env q t g' xs tp cs I K M N Hm IH. specialize (N eq_refl).
    assert (Var : forall n, is_id (stands_for tp g' n) = true -> Forall (below n) env -> below n (Pair q xs) -> exists c, cs = [c] /\ kind env (stands_for tp g' n) = None /\ denotes env (stands_for tp g' n) c).
    { intros n If Be Bx. specialize (Hm n Be Bx). set (f := stands_for tp g' n) in *. clearbody f. inversion Hm as [x c Ex Hc|q' xs' cs' Sq|q' t' g'' xs' tp' cs' Iq]; subst; try discriminate If.
      exists c. split; [reflexivity|]. inversion Hc; subst; try discriminate If. auto. }
    split.
    + intros bv dict n al T G O. destruct (expand_macro env bv dict n al T q t g' xs tp G O I K M N) as (m & T' & L & G' & Of & Be & Bx & Fx & _ & Ex). specialize (Var n). destruct (IH n Be Bx) as [IHe _].
      set (f := stands_for tp g' n) in *. destruct (clo_identify (map snd bv) T' m m bv f (g_fs _ _ _ _ _ _ G') (le_n _) eq_refl) as [Ei _].
      assert (Open : known (identify (Clo m bv g Nil f) g (at_ (map snd bv))) = false -> exists y n', n <= n' /\ runs (fun fuel => expand fuel g (Pair q xs) bv (A1 dict) n) (y, A1 dict, n') /\ settled_item dict (map snd bv) y cs).
      { intros Kf. destruct (IHe bv dict (S m) al T' (good_later _ _ _ _ _ _ _ (le_S _ _ (le_n m)) G') (obeys_later _ _ _ _ _ (le_S _ _ (le_n m)) Of)) as (y & n' & L' & R & Sy).
        exists y, n'. split; [lia|]. split; [|exact Sy]. eapply runs_step; [exact Ex|]. eapply open_closure; [apply G'|apply le_n|reflexivity|exact Kf|exact R]. }
      destruct (is_id f) eqn:If; [|apply Open; rewrite Ei; reflexivity]. destruct (Var eq_refl Be Bx) as (c & -> & Kf & Df).
      destruct (closure_of_variable env _ dict m al T' m bv f c G' (le_n _) eq_refl If Of Fx Kf Df) as [[Kn Sy]|[Un _]]; [|apply Open, Un].
      exists (Clo m bv g Nil f), (S m). split; [lia|]. split; [|constructor; [exact Sy|exact Kn]]. eapply runs_step; [exact Ex|]. apply (expand_var dict (map snd bv)); auto. exact Logic.I.
    + intros fs dict n al T G O rest cs' W.
      assert (Go : forall cs'', cs'' = cs ++ cs' -> swept dict fs cs'' n (Pair (Pair q xs) rest)); [|apply Go; reflexivity]. intros cs'' E''.
      assert (Go : forall x0 bv cur n1 formals specs, outer fs (map snd bv) -> map snd cur = fs -> n <= n1 -> exists m z, n1 <= m /\ swept dict fs cs'' m (Pair z rest) /\
        (forall r, runs (fun fuel => sweep fuel g x0 (Pair z rest) bv cur (A1 dict) m formals specs) r -> runs (fun fuel => sweep fuel g x0 (Pair (Pair q xs) rest) bv cur (A1 dict) n1 formals specs) r)).
      { intros x0 bv cur n1 formals specs E Ec L1. pose proof (good_later _ _ _ _ _ _ _ L1 G) as G1. pose proof (obeys_later _ _ _ _ _ L1 O) as O1. rewrite <- Ec in G1.
        destruct (expand_macro env cur dict n1 al T q t g' xs tp G1 O1 I K M N) as (m & T' & L & G' & Of & Be & Bx & Fx & Run & _). specialize (Var n1). destruct (IH n1 Be Bx) as [IHe _].
        set (f := stands_for tp g' n1) in *. rewrite Ec in G', G1. destruct (clo_identify fs T' m m cur f (g_fs _ _ _ _ _ _ G') (le_n _) Ec) as [Ei _].
        assert (First : forall fuel, sweep (S fuel) g x0 (Pair (Pair q xs) rest) bv cur (A1 dict) n1 formals specs = sweep fuel g x0 (Pair (Clo m cur g Nil f) rest) bv cur (A1 dict) (S m) formals specs).
        { intros fuel. cbn [Expander.sweep]. rewrite I, (identify_ids q g bv (at_ (map snd bv)) (at_of bv _ eq_refl)), (kw_outer env fs dict n1 al T G1 q _ I (proj1 O1) E), K. cbn [keyword_for]. rewrite Run. reflexivity. }
        assert (Open : known (identify (Clo m cur g Nil f) g (at_ fs)) = false -> exists m' z, n1 <= m' /\ swept dict fs cs'' m' (Pair z rest) /\
          (forall r, runs (fun fuel => sweep fuel g x0 (Pair z rest) bv cur (A1 dict) m' formals specs) r -> runs (fun fuel => sweep fuel g x0 (Pair (Pair q xs) rest) bv cur (A1 dict) n1 formals specs) r)).
        { intros Kf. pose proof (good_later _ _ _ _ _ _ _ (le_S _ _ (le_n m)) G') as G2. rewrite <- Ec in G2.
          destruct (IHe cur dict (S m) al T' G2 (obeys_later _ _ _ _ _ (le_S _ _ (le_n m)) Of)) as (y & n' & L' & R & Sy). rewrite Ec in Sy.
          exists n', y. split; [lia|]. split; [subst cs''; apply (proj1 (swept_settled dict fs) y cs Sy), (swept_mono _ _ _ n); [lia|exact W]|]. intros r Rs. eapply runs_step; [exact First|].
          apply (runs_step (fun fuel => bind (expand_closure fuel (Clo m cur g Nil f) cur (A1 dict) (S m)) (fun '(y, A, n) => sweep fuel g x0 (Pair y rest) bv cur A n formals specs))).
          { intros fuel. cbn [Expander.sweep]. rewrite (identify_ids _ g cur (at_ fs) (at_of cur fs Ec)), Kf. reflexivity. }
          apply (runs_bind _ _ (y, A1 dict, n') r); [|exact Rs]. apply (runs_step (fun fuel => expand fuel g f cur (A1 dict) (S m))); [|exact R]. intros fuel. cbn [Expander.expand_closure]. rewrite same_scope_refl. reflexivity. }
        destruct (is_id f) eqn:If; [|apply Open; rewrite Ei; reflexivity]. destruct (Var eq_refl Be Bx) as (c & Ecs & Kf & Df).
        destruct (closure_of_variable env _ dict m al T' m cur f c G' (le_n _) Ec If Of Fx Kf Df) as [[Kn Sy]|[Un _]]; [|apply Open, Un].
        exists (S m), (Clo m cur g Nil f). split; [lia|]. split; [|intros r Rs; eapply runs_step; [exact First|exact Rs]].
        subst cs'' cs. apply (proj1 (swept_settled dict fs) _ [c] (SI_one _ _ _ _ Sy Kn)), (swept_mono _ _ _ n); [lia|exact W]. }
      destruct cs'' as [|c cs'']; intros x0 bv cur n1 formals specs E Ec L1; destruct (Go x0 bv cur n1 formals specs E Ec L1) as (m & z & L & W' & Rz);
        destruct (W' x0 bv cur m formals specs E Ec (le_n _)) as (seq' & n' & L' & R & Rest); exists seq', n'; (split; [lia|]); (split; [apply Rz, R|exact Rest]).
  - intros; constructor.
  - intros; constructor; auto.
  - intros; apply PD_procedure; auto.
Qed.
(** ** Programs *)
Lemma good_empty n T : good [] [] [] n [] T.
Proof. split; try constructor; cbn; try reflexivity; try contradiction. Qed.
Lemma read_obeys T n x : closures (fun _ => False) x -> obeys T n [] x.
Proof. apply closures_mono. contradiction. Qed.
Lemma compile_runs x n y n' c : runs (fun fuel => expand fuel g x [] (A1 []) n) (y, A1 [], n') -> runs (fun fuel => generate fuel g y []) c ->
  runs (fun fuel => compile second content transform spec_value fuel g x n) c.
Proof.
  intros R Ge. unfold compile, expand_form. apply (runs_bind _ _ y c); [|exact Ge].
  apply (runs_bind _ (fun _ r => let '(y, _, _) := r in Ok y) (y, A1 [], n') y); [exact R|apply runs_ret].
Qed.
Lemma settled_top y c : settled [] [] y c -> runs (fun fuel => generate fuel g y []) c.
Proof. intros Sy. apply (proj1 (settled_generate [] []) y c Sy []). reflexivity. Qed.
Lemma define_runs q v y c : is_id v = true -> keyword_of (identify q g []) = KSyntax k_define -> is_id q = true -> closures (fun _ => False) v -> settled [] [] y c ->
  runs (fun fuel => generate fuel g (flist [q; v; y]) []) (CDefine (match cell v with Some k => CGlobal k | None => CNew v end) [c]).
Proof.
  intros Iv K Iq Cv Sy. apply (runs_step (fun fuel => bind (generate fuel g y []) (fun c => Ok (CDefine (variable v g []) [c])))).
  { intros fuel. cbn [Expander.generate flist]. rewrite Iq, K. cbv [k_quote k_quote_syntax k_lambda k_if k_set k_begin k_letrec k_define]. cbn [Nat.eqb car cdr elements map gather].
    destruct (generate fuel g y []); reflexivity. }
  apply (runs_bind _ _ c); [apply settled_top, Sy|]. destruct v as [| |s| | |]; try discriminate Iv; [|destruct Cv].
  unfold Expander.variable, Expander.identify, lookup. cbn [find_bound ExpanderSpec.cell]; change @bound with @assq in *. destruct (assq s (second g)); apply runs_ret.
Qed.
Theorem program_correct x c : closures (fun _ => False) x -> ExpanderSpec.program_means second content macro g true x c ->
  forall n, runs (fun fuel => compile second content transform spec_value fuel g x n) c.
Proof.
  intros Cl P n. set (T := fun _ : nat => (0, 0)). pose proof (good_empty n T) as G. destruct P as [x c M|q v x c Sq Iv _ M|q v formals xs c Sq Iv _ Fo Cv M].
  - destruct (proj1 (expander_correct []) x c M [] [] n [] T G (read_obeys T n x Cl)) as (y & n' & _ & R & Sy & _). eapply compile_runs; [exact R|]. apply settled_top, Sy.
  - pose proof (read_obeys T n _ Cl) as (Oq & Ov & Ox & _). pose proof (syntax_head _ _ _ _ _ _ q k_define G Oq Sq) as H.
    destruct (proj1 (expander_correct []) x c M [] [] n [] T G Ox) as (y & n' & _ & R & Sy & _). eapply compile_runs; [|apply define_runs; [exact Iv|apply (proj2 (proj2 (proj2 H)) [] (outer_refl []))|apply H|apply Cl|exact Sy]].
    eapply runs_step; [intros fuel; apply (expand_head [] [] q _ [] n _ eq_refl H)|].
    apply (runs_step (fun fuel => let '(a, A, n) := convert q (A1 []) n in bind (expand fuel g x [] A n) (fun '(e, A, n) => Ok (flist [a; v; e], A, n)))).
    { intros fuel. cbn [Expander.expand_syntax flist car cdr]. cbv [k_quote k_quote_syntax k_lambda k_if k_set k_begin k_letrec k_define k_callcc k_current k_install k_let_syntax]. cbn [Nat.eqb orb].
      destruct v; try discriminate Iv; reflexivity. }
    rewrite (convert_fixed [] q n) by apply H. eapply runs_bind; [exact R|]. apply runs_ret.
  - pose proof (read_obeys T n _ Cl) as (Oq & (Ov & Of) & Ox). pose proof (syntax_head _ _ _ _ _ _ q k_define G Oq Sq) as H.
    set (l := Clo n [] core Nil (Sym k_lambda)). set (T' := update T n (core, k_lambda)). destruct core_lambda as (cl & Al & Co).
    assert (Ml : means [] (Pair l (Pair formals xs)) (CLambda (len formals) (improper formals) c)).
    { apply M_lambda; auto. split; [reflexivity|]. unfold ExpanderSpec.kind, ExpanderSpec.keyword_content. cbn. change @bound with @assq. rewrite Al, Co. reflexivity. }
    assert (Ol : obeys T' (S n) [] (Pair l (Pair formals xs))).
    { split; [|split; [apply read_obeys, Cl|apply read_obeys, Cl]]. split; [|intros []]. exists n, core, k_lambda. repeat split; [lia|]. unfold T', update. rewrite Nat.eqb_refl. reflexivity. }
    destruct (proj1 (expander_correct []) _ _ Ml [] [] (S n) [] T' (good_empty _ _) Ol) as (y & n' & _ & R & Sy & _).
    eapply compile_runs; [|apply define_runs; [exact Iv|apply (proj2 (proj2 (proj2 H)) [] (outer_refl []))|apply H|apply Cl|exact Sy]].
    eapply runs_step; [intros fuel; apply (expand_head [] [] q _ [] n _ eq_refl H)|].
    apply (runs_step (fun fuel => let '(a, A, n) := convert q (A1 []) n in bind (expand fuel g (Pair (Clo n [] core Nil (Sym k_lambda)) (Pair formals xs)) [] A (S n)) (fun '(e, A, n) => Ok (flist [a; v; e], A, n)))); [reflexivity|].
    rewrite (convert_fixed [] q n) by apply H. eapply runs_bind; [exact R|]. apply runs_ret.
Qed.
End Proofs.
