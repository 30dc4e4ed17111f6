(** What the expansions of the macros of the library compute. *)
From Coq Require Import String List Bool Arith Lia Cantor.
From Verif Require Import SyntaxRules SyntaxRulesSpec Macros MacrosProofs.
From Verif Require MacrosSpec.
Import ListNotations.
Local Open Scope nat_scope.

(** ** What is meant by the identifiers that macros put in *)
Import MacrosSpec.
Local Arguments sym : simpl never.
Local Arguments alias : simpl never.
Local Arguments ren : simpl never.
Lemma refers_even x y : refers x y -> Nat.even y = true -> x = y.
Proof. intros [|u y' H] E; [reflexivity|]. exfalso. apply (odd_even _ (alias_odd u y') E). Qed.
Lemma refers_alias x u y : Nat.even x = true -> refers x (alias u y) -> refers x y.
Proof.
  intros E H. remember (alias u y) as z eqn:Z. destruct H as [|v y' H].
  - exfalso. subst x. apply (odd_even _ (alias_odd u y) E).
  - apply alias_inj in Z as [-> ->]. exact H.
Qed.
Lemma refers_same x y z : Nat.even x = true -> Nat.even y = true -> refers x z -> refers y z -> x = y.
Proof.
  intros Ex Ey H. induction H as [|u z H IH]; intros K.
  - symmetry. now apply refers_even.
  - apply IH. now apply refers_alias in K.
Qed.
Lemma sym_even k : Nat.even (sym k) = true.
Proof. unfold sym. rewrite Nat.even_mul. reflexivity. Qed.
Lemma is_same k k' h : is k h -> is k' h -> sym k = sym k'.
Proof. intros [H _] [H' _]. apply (refers_same _ _ h); auto using sym_even. Qed.
Lemma is_name k u : is k (alias u (sym k)).
Proof. split; [constructor; constructor|apply alias_odd]. Qed.
Lemma is_odd k h : is k h -> Nat.even h = false.
Proof. intros [_ H]. unfold Nat.odd in H. now apply negb_true_iff in H. Qed.
Ltac differ := match goal with H : is (String ?a ?k) ?h, H' : is (String ?a' ?k') ?h |- _ =>
  exfalso; generalize (is_same (String a k) (String a' k') h H H'); vm_compute; discriminate end.
Lemma library_macros k text : library_macro k = Some text ->
  (k = "let-values"%string /\ text = let_values_text) \/ (k = "let*-values"%string /\ text = let_star_values_text).
Proof.
  unfold library_macro. destruct (string_dec k "let-values"); [intros [= <-]; auto|]. destruct (string_dec k "let*-values"); [intros [= <-]; auto|discriminate].
Qed.
Lemma dlist_inj l m : dlist l = dlist m -> l = m.
Proof. revert m. induction l as [|a l IH]; intros [|b m]; cbn; intros H; try discriminate; auto. injection H as -> H. f_equal. auto. Qed.
Lemma formals_form_inj xs rest xs' rest' : formals_form xs rest = formals_form xs' rest' -> xs = xs' /\ rest = rest'.
Proof.
  revert xs'. induction xs as [|x xs IH]; intros [|x' xs']; cbn [formals_form]; intros H.
  - destruct rest, rest'; split; congruence.
  - destruct rest; discriminate.
  - destruct rest'; discriminate.
  - injection H as -> H. apply IH in H as [-> ->]. auto.
Qed.
Lemma form_of_inj f g : form_of f = form_of g -> f = g.
Proof. destruct f, g. unfold form_of. cbn. intros H. apply formals_form_inj in H as [-> ->]. reflexivity. Qed.

Section Meaning.
Context {value state loc : Type}.
Variables (user user_body : datum -> env loc -> state -> list value -> state -> Prop).
Variables (alloc : state -> value -> loc * state) (list_of : state -> list value -> value * state) (assign : state -> loc -> value -> state)
  (undefined : value) (closure : datum -> datum -> env loc -> state -> value * state).
Notation ev := (ev value state loc user user_body alloc list_of assign undefined closure).
Notation evs := (evs value state loc user user_body alloc list_of assign undefined closure).
Notation evb := (evb value state loc user user_body alloc list_of assign undefined closure).
Notation takes := (takes value state list_of).
Notation bind := (bind value state loc alloc).
Notation enter := (enter value state loc alloc).
Notation inits := (inits value state loc user list_of).

Lemma plain_head h args : Nat.even h = false -> plain (Pair (Id h) args) = false.
Proof. intros H. cbn. now rewrite H. Qed.
Ltac heads H := inversion H; subst; try (match goal with P : plain (Pair (Id ?h) _) = true, I : is _ ?h |- _ => rewrite (plain_head h _ (is_odd _ _ I)) in P; discriminate P end).
Lemma ev_plain u t r e s vs s' : plain e = true -> (ev u t r e s vs s' <-> user e r s vs s').
Proof.
  intros P. split; [|intros H; now apply E_user]. intros H. inversion H; subst; auto; exfalso.
  all: try match goal with O : Nat.odd ?x = true |- _ => cbn in P; unfold Nat.odd in O; rewrite P in O; discriminate end.
  all: match goal with I : is _ ?h |- _ => cbn in P; rewrite (is_odd _ _ I) in P; discriminate end.
Qed.
Lemma ev_macro u t r k text h args d s vs s' : is k h -> library_macro k = Some text -> expands text u (Pair (Id h) args) d ->
  (ev u t r (Pair (Id h) args) s vs s' <-> ev (S u) t r d s vs s').
Proof.
  intros I M X. split; [|intros H; eapply E_macro; eassumption]. intros H.
  assert (Z : forall d', expands text u (Pair (Id h) args) d' -> ev (S u) t r d' s vs s' -> ev (S u) t r d s vs s')
    by (intros d' Y E; rewrite (expands_det _ _ _ _ _ X Y); exact E).
  apply library_macros in M as [[-> ->]|[-> ->]]; heads H; try differ.
  all: match goal with M : library_macro _ = Some _ |- _ => apply library_macros in M as [[-> ->]|[-> ->]] end; try differ.
  all: eapply Z; eassumption.
Qed.
Lemma ev_values u t r h l1 l2 e f body s ws s4 : is "call-with-values" h -> is "lambda" l1 -> is "lambda" l2 ->
  (ev u t r (dlist [Id h; dlist [Id l1; Nil; e]; Pair (Id l2) (Pair (form_of f) body)]) s ws s4 <->
   exists vs s1 bs s2 t' r' s3, ev u t r e s vs s1 /\ takes f vs s1 bs s2 /\ enter bs t r s2 = (t', r', s3) /\ evb u t' r' body s3 ws s4).
Proof.
  intros I I1 I2. split.
  - intros H. cbn [dlist] in H. heads H; try differ.
    + match goal with X : form_of _ = form_of f |- _ => apply form_of_inj in X; subst end. do 7 eexists. repeat split; eassumption.
    + match goal with M : library_macro _ = Some _ |- _ => apply library_macros in M as [[-> ->]|[-> ->]] end; differ.
  - intros (vs & s1 & bs & s2 & t' & r' & s3 & H1 & H2 & H3 & H4). eapply E_values; eassumption.
Qed.
Lemma let_pairs_inj xs es ys fs : length xs = length es -> length ys = length fs ->
  dlist (map (fun '(x, e) => dlist [Id x; e]) (combine xs es)) = dlist (map (fun '(x, e) => dlist [Id x; e]) (combine ys fs)) -> xs = ys /\ es = fs.
Proof.
  revert es ys fs. induction xs as [|x xs IH]; intros [|e es] [|y ys] [|f fs]; cbn; intros L M H; try discriminate; auto.
  injection H as -> -> H. apply IH in H as [-> ->]; auto.
Qed.
Lemma ev_let u t r h xs es body s ws s3 : is "let" h -> length xs = length es ->
  (ev u t r (Pair (Id h) (Pair (dlist (map (fun '(x, e) => dlist [Id x; e]) (combine xs es))) body)) s ws s3 <->
   exists vs s1 t' r' s2, evs u t r es s vs s1 /\ enter (combine xs vs) t r s1 = (t', r', s2) /\ evb u t' r' body s2 ws s3).
Proof.
  intros I L. split.
  - intros H. heads H; try differ.
    + match goal with X : dlist _ = dlist _ |- _ => apply let_pairs_inj in X as [-> ->]; auto end. do 5 eexists. repeat split; eassumption.
    + match goal with M : library_macro _ = Some _ |- _ => apply library_macros in M as [[-> ->]|[-> ->]] end; differ.
  - intros (vs & s1 & t' & r' & s2 & H1 & H2 & H3). eapply E_let; eassumption.
Qed.
Lemma ev_letrec u t r h x e body s vs s3 : is "letrec" h -> Nat.odd x = false ->
  (ev u t r (dlist [Id h; dlist [dlist [Id x; e]]; body]) s vs s3 <->
   exists l s1 v s2, alloc s undefined = (l, s1) /\ ev u t (extend loc r x l) e s1 [v] s2 /\ ev u t (extend loc r x l) body (assign s2 l v) vs s3).
Proof.
  intros I L. split.
  - intros H. cbn [dlist] in H. heads H; try differ.
    + do 4 eexists. repeat split; eassumption.
    + match goal with M : library_macro _ = Some _ |- _ => apply library_macros in M as [[-> ->]|[-> ->]] end; differ.
  - intros (l & s1 & v & s2 & H1 & H2 & H3). eapply E_letrec; eassumption.
Qed.
Lemma ev_lambda u t r h fs body s vs s' : is "lambda" h -> plain fs = true -> plain body = true ->
  (ev u t r (Pair (Id h) (Pair fs body)) s vs s' <-> exists w, closure fs body r s = (w, s') /\ vs = [w]).
Proof.
  intros I P Q. split.
  - intros H. heads H; try differ.
    + eexists. split; [eassumption|reflexivity].
    + match goal with M : library_macro _ = Some _ |- _ => apply library_macros in M as [[-> ->]|[-> ->]] end; differ.
  - intros (w & H & ->). eapply E_lambda; eassumption.
Qed.
Lemma evb_plain u t r body s vs s' : plain body = true -> (evb u t r body s vs s' <-> user_body body r s vs s').
Proof.
  intros P. split; [|intros H; now apply EB_user]. intros H. inversion H; subst; auto; exfalso.
  - cbn in P. match goal with I : is _ ?h |- _ => rewrite (is_odd _ _ I) in P; discriminate end.
  - cbn in P. match goal with N : plain ?e = false |- _ => rewrite N in P; discriminate end.
Qed.
Lemma evb_begin u t r h body s vs s' : is "begin" h -> (evb u t r (dlist [Pair (Id h) body]) s vs s' <-> evb u t r body s vs s').
Proof.
  intros I. split; [|intros H; now apply EB_begin with (h := h)]. intros H. inversion H; subst.
  - match goal with P : plain _ = true |- _ => cbn in P; rewrite (is_odd _ _ I) in P; discriminate end.
  - assumption.
  - exfalso. match goal with E : MacrosSpec.ev _ _ _ _ _ _ _ _ _ _ _ _ _ (Pair (Id h) body) _ _ _ |- _ => heads E; try differ end.
    + match goal with M : library_macro _ = Some _ |- _ => apply library_macros in M as [[-> ->]|[-> ->]] end; differ.
Qed.
Lemma evb_one u t r e s vs s' : plain e = false -> (forall h body, e = Pair (Id h) body -> ~ is "begin" h) -> (evb u t r (dlist [e]) s vs s' <-> ev u t r e s vs s').
Proof.
  intros P N. split; [|intros H; now apply EB_one]. intros H. inversion H; subst.
  - match goal with Q : plain (dlist [e]) = true |- _ => cbn in Q; rewrite P in Q; discriminate end.
  - exfalso. eapply N; [reflexivity|eassumption].
  - assumption.
Qed.

(** ** Parameters *)
Definition olist (o : option nat) : list nat := match o with Some y => [y] | None => [] end.
Definition parameters (f : formals) : list nat := required f ++ olist (rest f).
(** the values of the parameters *)
Definition gives (n : nat) (more : bool) (vs : list value) (s : state) (ws : list value) (s2 : state) : Prop :=
  if more then exists a b w, vs = a ++ b /\ length a = n /\ list_of s b = (w, s2) /\ ws = a ++ [w]
  else length vs = n /\ ws = vs /\ s2 = s.
Definition some {A} (o : option A) : bool := match o with Some _ => true | None => false end.
Lemma combine_app {A B} (a : list A) (b : list B) a' b' : length a = length b -> combine (a ++ a') (b ++ b') = combine a b ++ combine a' b'.
Proof. revert b. induction a as [|x a IH]; intros [|y b]; cbn; intros H; try discriminate; auto. now rewrite IH by auto. Qed.
Lemma takes_gives f vs s bs s2 : takes f vs s bs s2 <->
  exists ws, gives (length (required f)) (some (rest f)) vs s ws s2 /\ bs = combine (parameters f) ws.
Proof.
  split.
  - intros H. inversion H as [xs vs' s' L|xs y vs' ws s' w s1 L E]; subst; cbn.
    + exists vs. repeat split; auto. unfold parameters. cbn. now rewrite app_nil_r.
    + exists (vs' ++ [w]). split; [exists vs', ws, w; auto|]. unfold parameters. cbn. now rewrite combine_app.
  - destruct f as [xs [y|]]; unfold gives, parameters; cbn.
    + intros (ws & (a & b & w & -> & L & E & ->) & ->). rewrite combine_app by auto. cbn. now apply T_rest.
    + intros (ws & (L & -> & ->) & ->). rewrite app_nil_r. apply T_all. auto.
Qed.
Lemma gives_length f vs s ws s2 : gives (length (required f)) (some (rest f)) vs s ws s2 -> length ws = length (parameters f).
Proof.
  destruct f as [xs [y|]]; unfold gives, parameters; cbn; rewrite ?app_length; cbn.
  - intros (a & b & w & -> & L & E & ->). rewrite app_length. cbn. lia.
  - intros (L & -> & ->). lia.
Qed.
Definition sets (bs : list (nat * value)) (t : tmps value) : tmps value := fold_left (fun t '(x, v) => set value t x v) bs t.
Lemma enter_odd bs : Forall (fun x => Nat.odd x = true) (map fst bs) -> forall t r s, enter bs t r s = (sets bs t, r, s).
Proof. induction bs as [|[x v] bs IH]; intros H t r s; [reflexivity|]. inversion H; subst. cbn [MacrosSpec.enter]. cbn in H2. rewrite H2. now apply IH. Qed.
Lemma enter_even bs : Forall (fun x => Nat.even x = true) (map fst bs) -> forall t r s, enter bs t r s = (t, fst (bind bs r s), snd (bind bs r s)).
Proof.
  induction bs as [|[x v] bs IH]; intros H t r s; [reflexivity|]. inversion H; subst. cbn [MacrosSpec.enter MacrosSpec.bind]. cbn in H2. unfold Nat.odd. rewrite H2. cbn [negb].
  destruct (alloc s v) as [l s1]. now apply IH.
Qed.
Lemma sets_other bs t x : ~ In x (map fst bs) -> sets bs t x = t x.
Proof.
  revert t. induction bs as [|[y v] bs IH]; intros t N; [reflexivity|]. cbn in N. cbn. rewrite IH by tauto.
  unfold set. destruct (Nat.eqb_spec x y); [subst; tauto|reflexivity].
Qed.
Lemma sets_same xs ws t : NoDup xs -> length xs = length ws -> Forall2 (fun x w => sets (combine xs ws) t x = Some w) xs ws.
Proof.
  revert ws t. induction xs as [|x xs IH]; intros [|w ws] t N L; try discriminate L; [constructor|]. inversion N; subst. constructor.
  - cbn. rewrite sets_other; [unfold set; now rewrite Nat.eqb_refl|]. intros I. apply in_map_iff in I as ([y v] & <- & I). apply in_combine_l in I. auto.
  - apply IH; auto.
Qed.

Lemma Forall2_impl_ {A B} (P Q : A -> B -> Prop) : (forall x y, P x y -> Q x y) -> forall l m, Forall2 P l m -> Forall2 Q l m.
Proof. intros H l m. induction 1; constructor; auto. Qed.

(** ** let-values *)
Definition both_ids (p : nat * nat) : datum := dlist [Id (fst p); Id (snd p)].
Lemma prepend_ids args y : prepend (map Id args) (Id y) = formals_form args (Some y).
Proof. induction args; cbn; congruence. Qed.
Lemma dlist_ids args : dlist (map Id args) = formals_form args None.
Proof. induction args; cbn; congruence. Qed.
Definition made (u u' y : nat) : Prop := exists v, u <= v < u' /\ y = alias v (sym "x").
Lemma made_odd u u' ys : Forall (made u u') ys -> Forall (fun x => Nat.odd x = true) ys.
Proof. intros H. eapply Forall_impl; [|exact H]. intros y (v & _ & ->). apply alias_odd. Qed.
Lemma mktmp e0 bs body rest_ : forall xs u kw args tmps, is "let-values" kw ->
  exists u' ys yr h l1 l2 lv, u < u' /\ length ys = length xs /\ some yr = some rest_ /\ Forall (made u u') (ys ++ olist yr) /\ NoDup (ys ++ olist yr) /\
    is "call-with-values" h /\ is "lambda" l1 /\ is "lambda" l2 /\ is "let-values" lv /\
  forall t r s ws s',
    ev u t r (Pair (Id kw) (dlist [Other 1; formals_form xs rest_; e0; dlist (map Id args); bs; dlist tmps; body])) s ws s' <->
    ev u' t r (dlist [Id h; dlist [Id l1; Nil; e0]; Pair (Id l2) (Pair (form_of (Formals (args ++ ys) yr))
      (dlist [dlist [Id lv; Other 0; bs; dlist (tmps ++ map both_ids (combine (xs ++ olist rest_) (ys ++ olist yr))); body]]))]) s ws s'.
Proof.
  induction xs as [|x xs IH]; intros u kw args tmps K.
  - destruct rest_ as [y|]; exists (S u), [].
    + exists (Some (alias u (sym "x"))). do 4 eexists. split; [lia|]. split; [reflexivity|]. split; [reflexivity|]. cbn [olist app].
      split; [constructor; [exists u; split; [lia|reflexivity]|constructor]|]. split; [constructor; [intros []|constructor]|].
      split; [apply is_name|]. split; [apply is_name|]. split; [apply is_name|]. split; [apply is_name|]. intros t r s ws s'.
      cbn [formals_form]. rewrite (ev_macro _ _ _ _ _ _ _ _ _ _ _ K eq_refl (let_values_6 u (Id kw) y e0 (map Id args) bs tmps body)).
      rewrite app_nil_r. unfold form_of. cbn [required rest combine map both_ids fst snd]. rewrite <- prepend_ids. reflexivity.
    + exists None. do 4 eexists. split; [lia|]. split; [reflexivity|]. split; [reflexivity|]. cbn [olist app].
      split; [constructor|]. split; [constructor|].
      split; [apply is_name|]. split; [apply is_name|]. split; [apply is_name|]. split; [apply is_name|]. intros t r s ws s'.
      cbn [formals_form]. rewrite (ev_macro _ _ _ _ _ _ _ _ _ _ _ K eq_refl (let_values_4 u (Id kw) e0 (dlist (map Id args)) bs (dlist tmps) body)).
      rewrite !app_nil_r. unfold form_of. cbn [required rest combine map]. rewrite <- dlist_ids. reflexivity.
  - destruct (IH (S u) (alias u (sym "let-values")) (args ++ [alias u (sym "x")]) (tmps ++ [both_ids (x, alias u (sym "x"))]) (is_name _ _))
      as (u' & ys & yr & h & l1 & l2 & lv & H1 & H2 & H3 & H4 & H5 & H6 & H7 & H8 & H9 & H).
    exists u', (alias u (sym "x") :: ys), yr, h, l1, l2, lv. split; [lia|]. split; [cbn; lia|]. split; [exact H3|]. cbn [app].
    split. { constructor; [exists u; split; [lia|reflexivity]|]. eapply Forall_impl; [|exact H4]. intros y (v & V & ->). exists v. split; [lia|reflexivity]. }
    split. { constructor; [|exact H5]. intros I. rewrite Forall_forall in H4. destruct (H4 _ I) as (v & V & E). apply alias_inj in E as [-> _]. lia. }
    split; [exact H6|]. split; [exact H7|]. split; [exact H8|]. split; [exact H9|]. intros t r s ws s'.
    cbn [formals_form]. rewrite (ev_macro _ _ _ _ _ _ _ _ _ _ _ K eq_refl (let_values_5 u (Id kw) (Id x) (formals_form xs rest_) e0 (map Id args) bs tmps body)).
    specialize (H t r s ws s'). rewrite map_app in H. cbn [map] in H. cbn [combine map]. rewrite <- !app_assoc in H. cbn [app] in H.
    unfold both_ids at 1 in H. cbn [fst snd] in H. exact H.
Qed.
Lemma evs_tmps u t r xs ws : Forall2 (fun x w => t x = Some w /\ Nat.odd x = true) xs ws ->
  forall s vs s', evs u t r (map Id xs) s vs s' <-> vs = ws /\ s' = s.
Proof.
  induction 1 as [|x w xs ws [T O] F IH]; intros s vs s'; cbn [map].
  - split; [intros H; inversion H; subst; auto|intros [-> ->]; constructor].
  - split.
    + intros H. inversion H; subst. match goal with E : MacrosSpec.evs _ _ _ _ _ _ _ _ _ _ _ _ _ _ _ _ _ |- _ => apply IH in E as [-> ->] end.
      match goal with E : MacrosSpec.ev _ _ _ _ _ _ _ _ _ _ _ _ _ _ _ _ _ |- _ => inversion E; subst end.
      * exfalso. match goal with P : plain (Id x) = true |- _ => cbn in P; unfold Nat.odd in O; rewrite P in O; discriminate end.
      * split; congruence.
    + intros [-> ->]. econstructor; [apply IH; auto|]. now constructor.
Qed.
(** the pairs (a x) of a let, the values that the a get *)
Definition held (u : nat) (t : tmps value) (p : nat * nat) (c : nat * value) : Prop :=
  fst p = fst c /\ Nat.even (fst p) = true /\ t (snd p) = Some (snd c) /\ exists v, v < u /\ snd p = alias v (sym "x").
Lemma held_combine u t ps done : Forall2 (held u t) ps done ->
  map both_ids ps = map (fun '(x, e) => dlist [Id x; e]) (combine (map fst ps) (map Id (map snd ps))) /\
  Forall2 (fun x w => t x = Some w /\ Nat.odd x = true) (map snd ps) (map snd done) /\
  combine (map fst ps) (map snd done) = done /\ Forall (fun x => Nat.even x = true) (map fst done).
Proof.
  induction 1 as [|[a x] [b v] ps done (H1 & H2 & H3 & w & L & H4) F (I1 & I2 & I3 & I4)]; cbn in *; [repeat constructor|].
  subst b. split; [f_equal; exact I1|]. split; [constructor; [split; [exact H3|subst; apply alias_odd]|exact I2]|].
  split; [f_equal; exact I3|]. now constructor.
Qed.
Lemma evb_library u t r h args s ws s' : is "let-values" h \/ is "let*-values" h ->
  (evb u t r (dlist [Pair (Id h) args]) s ws s' <-> ev u t r (Pair (Id h) args) s ws s').
Proof.
  intros I. apply evb_one.
  - apply plain_head. destruct I as [I|I]; exact (is_odd _ _ I).
  - intros h' body [= <- <-] B. destruct I; differ.
Qed.
Lemma bind_ok body P u0 (B : forall u t r s ws s', u0 <= u -> (evb u t r (dlist [body]) s ws s' <-> P r s ws s')) :
  forall bs u kw t r ps done s ws s', u0 <= u -> is "let-values" kw -> Forall clause_ok bs -> Forall2 (held u t) ps done ->
  (ev u t r (Pair (Id kw) (dlist [Other 0; dlist (map clause bs); dlist (map both_ids ps); body])) s ws s' <->
   exists cs s1 r' s2, inits bs r s cs s1 /\ bind (done ++ cs) r s1 = (r', s2) /\ P r' s2 ws s').
Proof.
  induction bs as [|[f e] bs IH]; intros u kw t r ps done s ws s' U K C H.
  - rewrite (ev_macro _ _ _ _ _ _ _ _ _ _ _ K eq_refl (let_values_2 u (Id kw) (dlist (map both_ids ps)) body)).
    destruct (held_combine _ _ _ _ H) as (H1 & H2 & H3 & H4). rewrite H1. cbn [dlist].
    rewrite (ev_let (S u) t r (alias u (sym "let")) (map fst ps) (map Id (map snd ps)) (dlist [body])); [|apply is_name|now rewrite !map_length].
    split.
    + intros (vs & s1 & t' & r' & s2 & E & N & Q). apply (evs_tmps _ _ _ _ _ H2) in E as [-> ->]. rewrite H3, (enter_even _ H4) in N. injection N as <- <- <-.
      apply B in Q; [|lia]. exists [], s, (fst (bind done r s)), (snd (bind done r s)). rewrite app_nil_r. split; [constructor|]. split; [now destruct (bind done r s)|exact Q].
    + intros (cs & s1 & r' & s2 & I & E & Q). inversion I; subst. rewrite app_nil_r in E.
      exists (map snd done), s1, t, r', s2. split; [now apply (evs_tmps _ _ _ _ _ H2)|]. rewrite H3, (enter_even _ H4), E. split; [reflexivity|]. apply B; [lia|exact Q].
  - inversion C as [|? ? [[F1 F2] Pe] C']; subst. cbn [fst snd] in F1, F2, Pe. cbn [map].
    rewrite (ev_macro _ _ _ _ _ _ _ _ _ _ _ K eq_refl (let_values_3 u (Id kw) (form_of f) e (map clause bs) (dlist (map both_ids ps)) body)).
    destruct f as [xs rest_]. unfold form_of. cbn [required rest] in *.
    destruct (mktmp e (dlist (map clause bs)) body rest_ xs (S u) (alias u (sym "let-values")) [] (map both_ids ps) (is_name _ _))
      as (u' & ys & yr & h & l1 & l2 & lv & H1 & H2 & H3 & H4 & H5 & H6 & H7 & H8 & H9 & X).
    cbn [dlist map] in X |- *. rewrite X. clear X. cbn [app]. rewrite <- map_app.
    eapply iff_trans; [exact (ev_values u' t r h l1 l2 e (Formals ys yr) (dlist [_]) s ws s' H6 H7 H8)|].
    assert (Lp : length (ys ++ olist yr) = length (xs ++ olist rest_)) by (rewrite !app_length, H2; destruct yr, rest_; try discriminate; reflexivity).
    assert (Old : forall t' vs', t' = sets (combine (ys ++ olist yr) vs') t -> length vs' = length (ys ++ olist yr) ->
      Forall2 (held u' t') (ps ++ combine (xs ++ olist rest_) (ys ++ olist yr)) (done ++ combine (xs ++ olist rest_) vs')).
    { intros t' vs' -> L. apply Forall2_app.
      - eapply Forall2_impl_; [|exact H]. intros [a x] [b v] (A1 & A2 & A3 & w & Lw & A4). unfold held. cbn [fst snd] in *. split; [exact A1|]. split; [exact A2|]. split; [|exists w; split; [lia|exact A4]].
        rewrite sets_other; [exact A3|]. intros I. apply in_map_iff in I as ([y v'] & E & I). cbn in E. subst y. apply in_combine_l in I.
        rewrite Forall_forall in H4. destruct (H4 _ I) as (w' & W & E). subst x. apply alias_inj in E as [-> _]. lia.
      - pose proof (sets_same (ys ++ olist yr) vs' t H5 (eq_sym L)) as S2.
        assert (Ev : Forall (fun x => Nat.even x = true) (xs ++ olist rest_)) by (apply Forall_app; split; [exact F1|destruct rest_; [repeat constructor; exact F2|constructor]]).
        revert S2. generalize (sets (combine (ys ++ olist yr) vs') t). intros t'. revert H4 Ev L Lp. generalize (ys ++ olist yr), (xs ++ olist rest_). clear -H1.
        intros l l' M Ev L Lp S2. revert l' Ev L Lp M. induction S2 as [|y v l vs' Y S2 IH]; intros [|x l'] Ev L Lp M; try discriminate; cbn; [constructor|].
        inversion Ev; inversion M; subst. constructor; [|apply IH; auto].
        match goal with Md : made _ _ y |- _ => destruct Md as (v' & V & ->) end. split; [reflexivity|]. split; [assumption|]. split; [exact Y|]. exists v'. split; [lia|reflexivity]. }
    split.
    + intros (vs & s1 & cs & s2 & t' & r' & s3 & E & T & N & Q). apply ev_plain in E; [|exact Pe].
      apply takes_gives in T as (vs' & G & ->). pose proof (gives_length _ _ _ _ _ G) as L. unfold parameters in L, N. cbn [required rest] in L, N, G.
      rewrite enter_odd in N. 2:{  apply made_odd in H4. apply Forall_forall. intros x I. apply in_map_iff in I as ([y v] & <- & I). apply in_combine_l in I. rewrite Forall_forall in H4. now apply H4. }
      injection N as <- <- <-. apply evb_library in Q; [|now left].
      apply (IH u' lv _ r _ _ _ _ _ ltac:(lia) H9 C' (Old _ vs' eq_refl L)) in Q as (cs & s4 & r' & s5 & I & E' & Q).
      exists (combine (xs ++ olist rest_) vs' ++ cs), s4, r', s5. split; [|split; [rewrite app_assoc; exact E'|exact Q]].
      econstructor; [exact E| |exact I]. apply takes_gives. exists vs'. cbn [required rest]. split; [|reflexivity]. rewrite <- H2, <- H3. exact G.
    + intros (cs & s1 & r' & s2 & I & E & Q). inversion I as [|? ? ? ? ? vs s3 cs1 s4 cs2 s5 E1 T I2]; subst.
      apply takes_gives in T as (vs' & G & ->). pose proof (gives_length _ _ _ _ _ G) as L. unfold parameters in L |- *. cbn [required rest] in *.
      exists vs, s3, (combine (ys ++ olist yr) vs'), s4, (sets (combine (ys ++ olist yr) vs') t), r, s4.
      split; [apply ev_plain; auto|]. split; [apply takes_gives; exists vs'; cbn [required rest]; rewrite H2, H3; split; [exact G|reflexivity]|].
      split. { apply enter_odd. apply made_odd in H4. apply Forall_forall. intros x J. apply in_map_iff in J as ([y v] & <- & J). apply in_combine_l in J. rewrite Forall_forall in H4. now apply H4. }
      apply evb_library; [now left|]. apply (IH u' lv _ r _ _ _ _ _ ltac:(lia) H9 C' (Old _ vs' eq_refl ltac:(lia))).
      exists cs2, s1, r', s2. split; [exact I2|]. split; [|exact Q]. unfold parameters in E. cbn [required rest] in E. rewrite app_assoc in E. exact E.
Qed.
Notation let_values_means := (let_values_means value state loc user user_body alloc list_of).
Notation let_star_values_means := (let_star_values_means value state loc user user_body alloc list_of).
Notation receive_means := (receive_means value state loc user user_body alloc list_of).
Notation rec_means := (rec_means value state loc alloc assign undefined).
Theorem let_values_ok u kw bs b0 b1 : Forall clause_ok bs -> plain b0 = true -> plain (dlist b1) = true ->
  exists d, expands let_values_text u (Pair kw (Pair (dlist (map clause bs)) (Pair b0 (dlist b1)))) d /\
    forall t r s ws s', ev (S u) t r d s ws s' <-> let_values_means bs (Pair b0 (dlist b1)) r s ws s'.
Proof.
  intros C P0 P1. eexists. split; [apply let_values_1|]. intros t r s ws s'.
  refine (bind_ok (Pair (Id (alias u (sym "begin"))) (Pair b0 (dlist b1))) (user_body (Pair b0 (dlist b1))) 0 _ bs (S u) (alias u (sym "let-values")) t r [] [] s ws s' _ (is_name _ _) C (Forall2_nil _)); [|lia].
  intros u' t' r' s1 ws1 s1' _. rewrite evb_begin by apply is_name. apply evb_plain. cbn [plain]. now rewrite P0, P1.
Qed.
Lemma inits_one f e r s cs s1 : inits [(f, e)] r s cs s1 <-> exists vs s2, user e r s vs s2 /\ takes f vs s2 cs s1.
Proof.
  split.
  - intros H. inversion H as [|? ? ? ? ? vs s2 cs1 s3 cs2 s4 E T I]; subst. inversion I; subst. rewrite app_nil_r. eauto.
  - intros (vs & s2 & E & T). rewrite <- (app_nil_r cs). econstructor; [exact E|exact T|constructor].
Qed.
Theorem let_star_values_ok b0 b1 : plain b0 = true -> plain (dlist b1) = true -> forall bs u kw, Forall clause_ok bs ->
  exists d, expands let_star_values_text u (Pair kw (Pair (dlist (map clause bs)) (Pair b0 (dlist b1)))) d /\
    forall t r s ws s', ev (S u) t r d s ws s' <-> let_star_values_means bs (Pair b0 (dlist b1)) r s ws s'.
Proof.
  intros P0 P1. assert (P : plain (Pair b0 (dlist b1)) = true) by (cbn [plain]; now rewrite P0, P1).
  induction bs as [|[f e] bs IH]; intros u kw C.
  - eexists. split; [apply let_star_values_1|]. intros t r s ws s'.
    eapply iff_trans; [exact (ev_let (S u) t r (alias u (sym "let")) [] [] (Pair b0 (dlist b1)) s ws s' (is_name _ _) eq_refl)|]. split.
    + intros (vs & s1 & t' & r' & s2 & E & N & Q). inversion E; subst. injection N as <- <- <-. constructor. now apply evb_plain in Q.
    + intros H. inversion H; subst. exists [], s, t, r, s. split; [constructor|]. split; [reflexivity|]. now apply evb_plain.
  - inversion C as [|? ? C1 C2]; subst. eexists. split; [apply (let_star_values_2 u kw (clause (f, e)) (map clause bs) b0 b1)|]. intros t r s ws s'.
    cbn [dlist]. rewrite (ev_macro _ _ _ _ _ _ _ _ _ _ _ (is_name "let-values" u) eq_refl
      (let_values_1 (S u) _ [clause (f, e)] (Pair (Id (alias u (sym "let*-values"))) (Pair (dlist (map clause bs)) (Pair b0 (dlist b1)))) [])).
    eapply iff_trans.
    { refine (bind_ok (Pair (Id (alias (S u) (sym "begin"))) (dlist [Pair (Id (alias u (sym "let*-values"))) (Pair (dlist (map clause bs)) (Pair b0 (dlist b1)))]))
        (let_star_values_means bs (Pair b0 (dlist b1))) 0 _ [(f, e)] (S (S u)) (alias (S u) (sym "let-values")) t r [] [] s ws s' _ (is_name _ _) _ (Forall2_nil _)); [|lia|repeat constructor; apply C1].
      intros u' t' r' s1 ws1 s1' _. rewrite evb_begin by apply is_name. rewrite evb_library by (right; apply is_name).
      destruct (IH u' (Id (alias u (sym "let*-values"))) C2) as (d & X & D). rewrite (ev_macro _ _ _ _ _ _ _ _ _ _ _ (is_name "let*-values" u) eq_refl X). apply D. }
    cbn [app]. split.
    + intros (cs & s1 & r' & s2 & I & B & Q). apply inits_one in I as (vs & s3 & E & T). econstructor; eassumption.
    + intros H. inversion H; subst. do 4 eexists. split; [apply inits_one; eauto|]. split; eassumption.
Qed.
Lemma takes_even f vs s bs s2 : formals_ok f -> takes f vs s bs s2 -> Forall (fun x => Nat.even x = true) (map fst bs).
Proof.
  intros [F1 F2] T. apply takes_gives in T as (ws & _ & ->). apply Forall_forall. intros x I. apply in_map_iff in I as ([y v] & <- & I). apply in_combine_l in I.
  unfold parameters in I. apply in_app_or in I as [I|I]; [rewrite Forall_forall in F1; now apply F1|]. destruct (rest f); [destruct I as [<-|[]]; exact F2|destruct I].
Qed.
Theorem receive_ok u kw f e body : formals_ok f -> plain e = true -> plain (dlist body) = true ->
  exists d, expands receive_text u (Pair kw (Pair (form_of f) (Pair e (dlist body)))) d /\
    forall t r s ws s', ev (S u) t r d s ws s' <-> receive_means f e (dlist body) r s ws s'.
Proof.
  intros F Pe Pb. eexists. split; [apply receive_1|]. intros t r s ws s'.
  rewrite ev_values by apply is_name. unfold MacrosSpec.receive_means. split.
  - intros (vs & s1 & cs & s2 & t' & r' & s3 & E & T & N & Q). apply ev_plain in E; [|exact Pe]. rewrite (enter_even _ (takes_even _ _ _ _ _ F T)) in N.
    injection N as <- <- <-. apply evb_plain in Q; [|exact Pb]. exists vs, s1, cs, s2, (fst (bind cs r s2)), (snd (bind cs r s2)).
    split; [exact E|]. split; [exact T|]. split; [now destruct (bind cs r s2)|exact Q].
  - intros (vs & s1 & cs & s2 & r' & s3 & E & T & N & Q). exists vs, s1, cs, s2, t, r', s3. split; [now apply ev_plain|]. split; [exact T|].
    rewrite (enter_even _ (takes_even _ _ _ _ _ F T)), N. split; [reflexivity|]. now apply evb_plain.
Qed.
(** a variable has the value that it was assigned last *)
Hypothesis reads : forall x r l s v vs s', r x = Some l -> (user (Id x) r (assign s l v) vs s' <-> vs = [v] /\ s' = assign s l v).
Theorem rec_procedure_ok u kw x fs body : Nat.even x = true -> plain fs = true -> plain body = true ->
  exists d, expands rec_text u (Pair kw (Pair (Pair (Id x) fs) body)) d /\
    forall t r s ws s', ev (S u) t r d s ws s' <-> rec_means x (fun r s v s' => closure fs body r s = (v, s')) r s ws s'.
Proof.
  intros X Pf Pb. eexists. split; [apply rec_1|]. intros t r s ws s'.
  rewrite ev_letrec; [|apply is_name|unfold Nat.odd; now rewrite X]. unfold MacrosSpec.rec_means. split.
  - intros (l & s1 & v & s2 & A & E & Q). apply ev_lambda in E as (w & E & [= ->]); [|apply is_name|exact Pf|exact Pb].
    apply ev_plain in Q; [|exact X]. apply reads in Q as [-> ->]; [|unfold extend; now rewrite Nat.eqb_refl]. exists l, s1, w, s2. auto.
  - intros (l & s1 & v & s2 & A & E & -> & ->). exists l, s1, v, s2. split; [exact A|]. split; [apply ev_lambda; [apply is_name|exact Pf|exact Pb|]; eauto|].
    apply ev_plain; [exact X|]. apply reads; [unfold extend; now rewrite Nat.eqb_refl|auto].
Qed.
Theorem rec_expression_ok u kw x e : Nat.even x = true -> plain e = true ->
  exists d, expands rec_text u (Pair kw (dlist [Id x; e])) d /\
    forall t r s ws s', ev (S u) t r d s ws s' <-> rec_means x (fun r s v s' => user e r s [v] s') r s ws s'.
Proof.
  intros X Pe. eexists. split; [apply rec_2|]. intros t r s ws s'.
  rewrite ev_letrec; [|apply is_name|unfold Nat.odd; now rewrite X]. unfold MacrosSpec.rec_means. split.
  - intros (l & s1 & v & s2 & A & E & Q). apply ev_plain in E; [|exact Pe].
    apply ev_plain in Q; [|exact X]. apply reads in Q as [-> ->]; [|unfold extend; now rewrite Nat.eqb_refl]. exists l, s1, v, s2. auto.
  - intros (l & s1 & v & s2 & A & E & -> & ->). exists l, s1, v, s2. split; [exact A|]. split; [now apply ev_plain|].
    apply ev_plain; [exact X|]. apply reads; [unfold extend; now rewrite Nat.eqb_refl|auto].
Qed.
End Meaning.
