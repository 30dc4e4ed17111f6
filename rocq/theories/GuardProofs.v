(** Proofs about guard. *)
From Coq Require Import String List Bool Arith Lia Cantor.
From Verif Require Import SyntaxRules SyntaxRulesSpec PropertiesSyntaxRules Macros MacrosSpec MacrosProofs MacrosEval Guard.
Import ListNotations.
Local Open Scope nat_scope.
Local Arguments sym : simpl never.
Local Arguments alias : simpl never.
Local Arguments ren : simpl never.

(** ** compare *)
Lemma alias_half u x : snd (of_nat (Nat.div2 (alias u x))) = x.
Proof. unfold alias. replace (2 * to_nat (u, x) + 1) with (S (2 * to_nat (u, x))) by lia. rewrite Nat.div2_succ_double, cancel_of_to. reflexivity. Qed.
Lemma alias_lt u x : x < alias u x.
Proof. unfold alias. assert (H := to_nat_non_decreasing u x). lia. Qed.
Lemma root_fuel n m x : x <= n -> x <= m -> root_ n x = root_ m x.
Proof.
  revert m x. induction n as [|n IH]; intros m x Ln Lm.
  - assert (x = 0) by lia. subst. destruct m; reflexivity.
  - destruct m as [|m]; [assert (x = 0) by lia; subst; reflexivity|]. cbn [root_]. destruct (Nat.even x) eqn:E; [reflexivity|].
    assert (L : snd (of_nat (Nat.div2 x)) < x).
    { destruct (of_nat (Nat.div2 x)) as [u y] eqn:H. cbn [snd]. assert (K : to_nat (u, y) = Nat.div2 x) by (rewrite <- H; apply cancel_to_of).
      assert (Q := to_nat_non_decreasing u y). assert (x <> 0) by (intros ->; discriminate E). assert (D := Nat.lt_div2 x ltac:(lia)). lia. }
    apply IH; lia.
Qed.
Lemma root_alias u x : root (alias u x) = root x.
Proof.
  unfold root at 1. assert (L := alias_lt u x). destruct (alias u x) as [|n] eqn:E; [lia|]. cbn [root_]. rewrite <- E.
  assert (O := alias_odd u x). unfold Nat.odd in O. apply negb_true_iff in O. rewrite O. rewrite alias_half. unfold root. apply root_fuel; lia.
Qed.
Lemma root_even x : Nat.even x = true -> root x = x.
Proof. intros E. unfold root. destruct x; [reflexivity|]. cbn [root_]. now rewrite E. Qed.
Lemma compare_literal u k d : plain d = true -> (compare d (ren u (Id (sym k))) = true <-> d = Id (sym k)).
Proof.
  intros P. unfold ren. cbn [compare]. destruct d as [x| | | | | |]; cbn [compare]; try (split; discriminate).
  rewrite root_alias, (root_even _ (sym_even k)). cbn in P. rewrite (root_even _ P). split; [intros H; apply Nat.eqb_eq in H; congruence|intros [= ->]; apply Nat.eqb_refl].
Qed.

(** ** Which rule applies *)
Definition literal_g (x : nat) : bool := existsb (cmp (Id x)) (elements aux_literals).
Definition fits_g (u : nat) (x : nat) (d : datum) : bool := compare d (ren u (Id x)).
Definition rule_g (r : datum * datum) : bool :=
  match fst r with
  | Pair _ p => careful_pattern dots_ literal_g p && nodup_b (variables dots_ literal_g blank_ p) && careful_b (snd r) &&
                forallb (fun x => negb (blank_ x)) (identifiers (snd r))
  | _ => false
  end.
Lemma rule_g_ok r : rule_g r = true -> careful_rule dots_ literal_g blank_ r.
Proof.
  destruct r as [[x| |k p|l|b|n|n] t]; try discriminate. unfold rule_g. cbn [fst snd]. intros H.
  apply andb_prop in H as [H H4]. apply andb_prop in H as [H H3]. apply andb_prop in H as [H1 H2].
  exists k, p. split; [reflexivity|]. split; [exact H1|]. split; [|split; [apply careful_b_ok; exact H3|]].
  - apply nodup_b_ok. exact H2.
  - intros x I. rewrite forallb_forall in H4. apply H4 in I. now apply negb_true_iff in I.
Qed.
Definition guard_aux_rules := Eval vm_compute in rules_of guard_aux_text.
Definition guard_rules := Eval vm_compute in rules_of guard_text.
Definition by_guard := by_rules guard_text guard_rules ltac:(vm_compute; reflexivity) ltac:(vm_compute; reflexivity) ltac:(vm_compute; reflexivity).
Notation chosen_g u := (choose dots_ literal_g blank_ (fits_g u)).
Lemma by_rules_g rules : rules_of guard_aux_text = rules -> forallb rule_g rules = true ->
  match transformer cmp (Id (sym "_")) (Id (sym "...")) aux_literals 300 rules with Ok _ => true | _ => false end = true ->
  forall u kw args s t d, chosen_g u rules args = Some (s, t) -> filled u s t d -> aux_expands u (Pair kw args) d.
Proof.
  intros E C T u kw args s t d H I. unfold aux_expands. rewrite E. clear E. revert T. generalize 300. intros fuel T.
  destruct (transformer cmp (Id (sym "_")) (Id (sym "...")) aux_literals fuel rules) as [e| | |] eqn:F; try discriminate T.
  pose proof (C61_rules_partial cmp (Id (sym "_")) (Id (sym "...")) aux_literals (ren u) compare (fun _ => Nil) fuel rules e kw args) as K.
  specialize (K ltac:(intros [x| | | | | |] X; try discriminate; eauto)). cbv beta zeta in K.
  specialize (K ltac:(apply Forall_forall; intros r J; apply rule_g_ok; rewrite forallb_forall in C; auto) F).
  unfold literal_g, dots_, blank_, fits_g in H. rewrite H in K. destruct (K d I) as [n N]. eauto.
Qed.
Definition by_guard_aux := by_rules_g guard_aux_rules ltac:(vm_compute; reflexivity) ltac:(vm_compute; reflexivity) ltac:(vm_compute; reflexivity).
Lemma aux_det u form d d' : aux_expands u form d -> aux_expands u form d' -> d = d'.
Proof.
  intros (e & n & E & H) (e' & n' & E' & H'). rewrite E in E'. injection E' as <-.
  specialize (H (max n n') ltac:(lia)). specialize (H' (max n n') ltac:(lia)). congruence.
Qed.
Notation match_g u := (matching dots_ literal_g blank_ (fits_g u)).
Lemma g_each u x l : literal_g x = false -> blank_ x = false -> match_g u (Pair (Id x) (Pair (Id (sym "...")) Nil)) (dlist l) = Some [(x, Many (map One l))].
Proof.
  intros L B. cbn [matching starts]. replace (dots_ (Id (sym "..."))) with true by reflexivity. cbn [pairs]. rewrite pairs_dlist, Nat.sub_0_r.
  cbn [Nat.leb]. rewrite elements_dlist, firstn_all, after_dlist. rewrite L, B.
  assert (E : every (map (fun d => Some [(x, One d)]) l) = Some (map (fun d => [(x, One d)]) l)) by (clear; induction l as [|a l IH]; [reflexivity|cbn; rewrite IH; reflexivity]).
  cbn [variables]. rewrite L, B. cbn [orb].
  etransitivity; [apply (f_equal (fun o => match o with Some ss => both (Some (sequences [x] ss)) (if same Nil Nil then Some [] else None) | None => None end) E)|].
  cbn [sequences map both app]. rewrite map_map. cbn [get]. rewrite Nat.eqb_refl. reflexivity.
Qed.
Lemma g_pair u a q x y : starts dots_ q = false -> match_g u (Pair a q) (Pair x y) = both (match_g u a x) (match_g u q y).
Proof. intros H. cbn [matching]. rewrite H. reflexivity. Qed.
Lemma g_variable u x d : literal_g x = false -> blank_ x = false -> match_g u (Id x) d = Some [(x, One d)].
Proof. intros L B. cbn [matching]. now rewrite L, B. Qed.
Lemma g_hit u k x : literal_g x = true -> sym k = x -> match_g u (Id x) (Id (sym k)) = Some [].
Proof. intros L <-. cbn [matching]. rewrite L. unfold fits_g. replace (compare _ _) with true; [reflexivity|]. symmetry. apply compare_literal; [cbn; apply sym_even|reflexivity]. Qed.
Lemma g_miss u k x d : literal_g x = true -> sym k = x -> plain d = true -> not_identifier k d -> match_g u (Id x) d = None.
Proof.
  intros L <- P N. cbn [matching]. rewrite L. unfold fits_g. destruct (compare d (ren u (Id (sym k)))) eqn:E; [|reflexivity].
  apply compare_literal in E; [|exact P]. contradiction.
Qed.
Lemma g_nil u : match_g u Nil Nil = Some [].
Proof. reflexivity. Qed.
Ltac sees := repeat first [rewrite g_pair by reflexivity | rewrite g_each by reflexivity | rewrite g_variable by reflexivity | rewrite g_nil
  | rewrite (g_hit _ "else") by reflexivity | rewrite (g_hit _ "=>") by reflexivity
  | rewrite (g_miss _ "else") by (first [reflexivity|assumption]) | rewrite (g_miss _ "=>") by (first [reflexivity|assumption]) ].
Ltac matched_g := cbn [dlist]; sees; cbn [both app]; reflexivity.
Ltac skip_g := match goal with |- match ?m with Some _ => _ | None => _ end = _ =>
  let H := fresh in assert (H : m = None) by (cbn [dlist map]; sees; cbn [both]; reflexivity); rewrite H; clear H end.
Lemma aux_else u kw rr b bs : aux_expands u (Pair kw (dlist [rr; Pair (Id (sym "else")) (dlist (b :: bs))])) (Pair (name u "begin") (dlist (b :: bs))).
Proof. eapply by_guard_aux; [unfold guard_aux_rules; cbn [choose]|]. { matched_g. } cbn [dlist]. rewrite <- (prepend_nil bs). fill. Qed.
Ltac aux := eapply by_guard_aux; [unfold guard_aux_rules; cbn [choose]|].
Section Clauses.
Variables (u : nat) (kw rr : datum).
Lemma aux_arrow_last e f : plain e = true -> not_identifier "else" e ->
  aux_expands u (Pair kw (dlist [rr; dlist [e; Id (sym "=>"); f]]))
    (dlist [name u "let"; dlist [dlist [name u "temp"; e]]; dlist [name u "if"; name u "temp"; dlist [f; name u "temp"]; rr]]).
Proof. intros P N. aux. { skip_g. matched_g. } cbn [dlist]. fill. Qed.
Lemma aux_arrow e f c cs : plain e = true -> not_identifier "else" e ->
  aux_expands u (Pair kw (Pair rr (dlist (dlist [e; Id (sym "=>"); f] :: c :: cs))))
    (dlist [name u "let"; dlist [dlist [name u "temp"; e]]; dlist [name u "if"; name u "temp"; dlist [f; name u "temp"]; Pair (name u "guard-aux") (Pair rr (dlist (c :: cs)))]]).
Proof. intros P N. aux. { do 2 skip_g. matched_g. } cbn [dlist]. rewrite <- (prepend_nil cs). fill. Qed.
Lemma aux_test_last e : plain e = true -> aux_expands u (Pair kw (dlist [rr; dlist [e]])) (dlist [name u "or"; e; rr]).
Proof.
  intros P. aux.
  { match goal with |- match ?m with Some _ => _ | None => _ end = _ => assert (H : m = None) end.
    { cbn [dlist]. rewrite !g_pair by reflexivity. destruct (match_g u (Id _) e); reflexivity. }
    rewrite H. do 2 skip_g. matched_g. } cbn [dlist]. fill.
Qed.
Lemma aux_test e c cs : plain e = true -> aux_expands u (Pair kw (Pair rr (dlist (dlist [e] :: c :: cs))))
    (dlist [name u "let"; dlist [dlist [name u "temp"; e]]; dlist [name u "if"; name u "temp"; name u "temp"; Pair (name u "guard-aux") (Pair rr (dlist (c :: cs)))]]).
Proof.
  intros P. aux.
  { match goal with |- match ?m with Some _ => _ | None => _ end = _ => assert (H : m = None) end.
    { cbn [dlist]. rewrite !g_pair by reflexivity. destruct (match_g u (Id _) e); reflexivity. }
    rewrite H. do 3 skip_g. matched_g. } cbn [dlist]. rewrite <- (prepend_nil cs). fill.
Qed.
Lemma aux_body_last e b bs : plain e = true -> not_identifier "else" e -> plain b = true -> not_identifier "=>" b ->
  aux_expands u (Pair kw (dlist [rr; Pair e (dlist (b :: bs))]))
    (dlist [name u "if"; e; Pair (name u "begin") (dlist (b :: bs)); rr]).
Proof. intros P N Pb Nb. aux. { do 5 skip_g. matched_g. } cbn [dlist]. rewrite <- (prepend_nil bs). fill. Qed.
Lemma aux_body e b bs c cs : plain e = true -> not_identifier "else" e -> plain b = true -> not_identifier "=>" b ->
  aux_expands u (Pair kw (Pair rr (dlist (Pair e (dlist (b :: bs)) :: c :: cs))))
    (dlist [name u "if"; e; Pair (name u "begin") (dlist (b :: bs)); Pair (name u "guard-aux") (Pair rr (dlist (c :: cs)))]).
Proof. intros P N Pb Nb. aux. { do 6 skip_g. matched_g. } cbn [dlist]. rewrite <- (prepend_nil bs), <- (prepend_nil cs). fill. Qed.
End Clauses.
Definition again_ u := dlist [name u "handler-k"; dlist [name u "lambda"; Nil; dlist [name u "raise-continuable"; name u "condition"]]].
Lemma guard_1 u kw x cs b bs : expands guard_text u (Pair kw (Pair (Pair (Id x) (dlist cs)) (dlist (b :: bs))))
  (dlist [dlist [name u "call-with-current-continuation"; dlist [name u "lambda"; dlist [name u "guard-k"];
    dlist [name u "with-exception-handler";
      dlist [name u "lambda"; dlist [name u "condition"];
        dlist [dlist [name u "call-with-current-continuation"; dlist [name u "lambda"; dlist [name u "handler-k"];
          dlist [name u "guard-k"; dlist [name u "lambda"; Nil;
            dlist [name u "let"; dlist [dlist [Id x; name u "condition"]];
              Pair (name u "guard-aux") (Pair (again_ u) (dlist cs))]]]]]]];
      dlist [name u "lambda"; Nil;
        dlist [name u "call-with-values"; Pair (name u "lambda") (Pair Nil (dlist (b :: bs)));
          dlist [name u "lambda"; name u "args"; dlist [name u "guard-k"; dlist [name u "lambda"; Nil; dlist [name u "apply"; name u "values"; name u "args"]]]]]]]]]]).
Proof. step by_guard guard_rules. { matched. } unfold again_. cbn [dlist]. rewrite <- (prepend_nil cs), <- (prepend_nil bs). fill. Qed.

(** ** What the expansion means *)
Section Meaning.
Context {value state loc dyn answer : Type}.
Notation env := (env loc).
Notation computation := (computation value state dyn answer).
Variables (user user_seq user_body : datum -> env -> computation) (call : value -> list value -> computation) (alloc : state -> value -> loc * state)
  (truth : value -> bool) (raise_continuable : value -> computation) (wrong : state -> answer) (push : dyn -> (value -> computation) -> dyn)
  (reroot : dyn -> dyn -> (state -> answer) -> state -> answer).
Notation means := (means value state loc dyn answer user user_seq user_body call alloc truth raise_continuable wrong push reroot).
Notation clauses_mean := (clauses_mean value state loc dyn answer user user_seq call truth wrong).
Notation guard_means := (guard_means value state loc dyn answer user user_seq user_body call alloc truth raise_continuable wrong push reroot).
Notation set := (set value state dyn answer).
Notation tmps := (tmps value state dyn answer).
Lemma set_same_ (t : tmps) x v : set t x v x = Some v.
Proof. unfold set, Guard.set. now rewrite Nat.eqb_refl. Qed.
Lemma set_other_ (t : tmps) x v y : y <> x -> set t x v y = t y.
Proof. intros N. unfold set, Guard.set. destruct (Nat.eqb_spec y x); congruence. Qed.
Lemma plain_list b bs : plain (dlist (b :: bs)) = true -> plain b = true.
Proof. cbn. intros H. now apply andb_prop in H. Qed.
Lemma means_conv u t r d c c' : means u t r d c -> c' = c -> means u t r d c'.
Proof. intros H ->. exact H. Qed.
Ltac own_name := eexists; split; [|apply is_name]; cbn [In]; tauto.
Lemma let_if u t r h h' x e e2 e3 c c2 c3 : is "let" h -> is "if" h' -> own x -> means u t r e c ->
  (forall v, means u (set t x (Held _ _ _ _ v)) r e2 (c2 v)) -> (forall v, means u (set t x (Held _ _ _ _ v)) r e3 c3) ->
  means u t r (dlist [Id h; dlist [dlist [Id x; e]]; dlist [Id h'; Id x; e2; e3]]) (fun d k s => c d (single _ _ _ wrong (fun v s => if truth v then c2 v d k s else c3 d k s)) s).
Proof.
  intros L I X E E2 E3. apply M_let with (cb := fun v d k s => if truth v then c2 v d k s else c3 d k s); [exact L|exact X|exact E|]. intros v.
  eapply means_conv; [eapply M_if with (c1 := fun d k s => k [v] s); [exact I| |apply E2|apply E3]|reflexivity]. apply M_tmp; [exact X|apply set_same_].
Qed.
Lemma clauses_ok_mean (ks : list nat) (rr : datum) (r : env) (otherwise : computation) (t0 : tmps) (u0 : nat) :
  (forall y, In y ks -> exists k, y = alias u0 k) ->
  (forall u t, (forall y, In y ks -> t y = t0 y) -> means u t r rr otherwise) ->
  forall cs, cs <> [] -> clauses_ok cs -> forall u t h, u0 < u -> is "guard-aux" h -> (forall y, In y ks -> t y = t0 y) ->
  means u t r (Pair (Id h) (Pair rr (dlist (map clause_form cs)))) (clauses_mean cs r otherwise).
Proof.
  intros Kn Again. induction cs as [|c cs IH]; [contradiction|]. intros _ [C [L Cs]] u t h Lt H T.
  assert (Rest : cs <> [] -> forall t, (forall y, In y ks -> t y = t0 y) -> means (S u) t r (Pair (name u "guard-aux") (Pair rr (dlist (map clause_form cs)))) (clauses_mean cs r otherwise)).
  { intros Ne t' T'. apply IH; auto using is_name. }
  assert (Keep : forall v, forall y, In y ks -> set t (alias u (sym "temp")) v y = t0 y).
  { intros v y Y. rewrite set_other_; [auto|]. destruct (Kn y Y) as [k ->]. intros E. apply alias_inj in E as [E _]. lia. }
  destruct c as [b|e f|e|e b]; cbn [clause_form] in *.
  - destruct C as [P N]. subst cs. destruct b as [|b bs]; [contradiction|]. eapply M_macro; [exact H|apply aux_else|]. apply M_begin; [apply is_name|exact P].
  - destruct C as (P & Pf & N). destruct cs as [|c cs].
    + eapply means_conv; [eapply M_macro; [exact H|apply aux_arrow_last; assumption|]; apply let_if with (c2 := fun v d k s => user f r d (single _ _ _ wrong (fun p s => call p [v] d k s)) s); [apply is_name|apply is_name|own_name|apply M_user; exact P|intros v; apply M_call; [exact Pf|own_name|apply set_same_]|intros v; apply Again, Keep]|reflexivity].
    + eapply means_conv; [eapply M_macro; [exact H|apply aux_arrow; assumption|]; apply let_if with (c2 := fun v d k s => user f r d (single _ _ _ wrong (fun p s => call p [v] d k s)) s); [apply is_name|apply is_name|own_name|apply M_user; exact P|intros v; apply M_call; [exact Pf|own_name|apply set_same_]|intros v; apply Rest; [discriminate|apply Keep]]|reflexivity].
  - destruct cs as [|c cs].
    + eapply means_conv; [eapply M_macro; [exact H|apply aux_test_last; assumption|]; eapply M_or; [apply is_name|apply M_user; exact C|apply Again, T]|reflexivity].
    + eapply means_conv; [eapply M_macro; [exact H|apply aux_test; assumption|]; apply let_if with (c2 := fun v d k s => k [v] s); [apply is_name|apply is_name|own_name|apply M_user; exact C|intros v; apply M_tmp; [own_name|apply set_same_]|intros v; apply Rest; [discriminate|apply Keep]]|reflexivity].
  - destruct C as (P & Pb & N & Nb). destruct b as [|b bs]; [contradiction|]. assert (Pb' := plain_list _ _ Pb). destruct cs as [|c cs].
    + eapply means_conv; [eapply M_macro; [exact H|apply aux_body_last; assumption|]; eapply M_if; [apply is_name|apply M_user; exact P|apply M_begin; [apply is_name|exact Pb]|apply Again, T]|reflexivity].
    + eapply means_conv; [eapply M_macro; [exact H|apply aux_body; assumption|]; eapply M_if; [apply is_name|apply M_user; exact P|apply M_begin; [apply is_name|exact Pb]|apply Rest; [discriminate|exact T]]|reflexivity].
Qed.
Ltac other := rewrite set_other_ by (let E := fresh in intros E; apply alias_inj in E as [_ E]; vm_compute in E; discriminate E).
Theorem guard_ok u kw x cs body : Nat.even x = true -> cs <> [] -> clauses_ok cs -> body <> [] -> plain (dlist body) = true ->
  exists d, expands guard_text u (guard_form kw x cs body) d /\ forall t r, means (S u) t r d (guard_means x cs (dlist body) r).
Proof.
  intros X Ne C Nb P. destruct body as [|b bs]; [contradiction|]. eexists. split; [apply guard_1|]. intros t r.
  set (otherwise := fun v d1 k1 : _ => (fun d2 (_ : cont value state answer) s => reroot d2 d1 (raise_continuable v d1 k1) s) : computation).
  set (back := fun d k v l => (fun d1 k1 => clauses_mean cs (extend loc r x l) (otherwise v d k) d1 k1) : computation).
  set (handler := fun d k v => (fun d1 k1 s => reroot d1 d (fun s => let '(l, s1) := alloc s v in back d1 k1 v l d k s1) s) : computation).
  set (leave := fun (d : dyn) (k : cont value state answer) vs => (fun d1 (_ : cont value state answer) s => reroot d1 d (k vs) s) : computation).
  apply means_conv with (c := fun d k s => reroot d (push d (handler d k)) (user_body (dlist (b :: bs)) r (push d (handler d k)) (fun vs => leave d k vs (push d (handler d k)) (fun vs => reroot (push d (handler d k)) d (single _ _ _ wrong (fun f s => call f [] d k s) vs)))) s); [|reflexivity].
  apply M_callcc with (cb := fun d k d1 k1 s => reroot d1 (push d1 (handler d k)) (user_body (dlist (b :: bs)) r (push d1 (handler d k)) (fun vs => leave d k vs (push d1 (handler d k)) (fun vs => reroot (push d1 (handler d k)) d1 (k1 vs)))) s);
    [apply is_name|apply is_name|own_name|]. intros d k.
  apply M_handler with (ch := handler d k) (cb := fun d1 k1 s => user_body (dlist (b :: bs)) r d1 (fun vs => leave d k vs d1 k1) s);
    [apply is_name|apply is_name|apply is_name|own_name|intros v|].
  - apply M_callcc with (cb := fun d1 k1 => (fun d2 k2 s => reroot d2 d (fun s => let '(l, s1) := alloc s v in back d1 k1 v l d k s1) s) : computation); [apply is_name|apply is_name|own_name|]. intros d1 k1.
    apply M_escape with (cb := fun d2 k2 s => let '(l, s1) := alloc s v in back d1 k1 v l d2 k2 s1) (d0 := d) (k0 := k); [own_name|do 2 other; apply set_same_|apply is_name|].
    eapply means_conv; [apply M_bind with (c := fun d k s => k [v] s) (cb := fun l => back d1 k1 v l); [apply is_name|exact X|apply M_tmp; [own_name|other; apply set_same_]|]|reflexivity]. intros l.
    unfold back. eapply (clauses_ok_mean [alias u (sym "handler-k"); alias u (sym "condition")]); [| |exact Ne|exact C| |apply is_name|].
    + intros y [<-|[<-|[]]]; eauto.
    + intros u' t' T. unfold otherwise. apply M_escape; [own_name|rewrite T by (now left); apply set_same_|apply is_name|].
      apply M_raise; [apply is_name|own_name|]. rewrite T by (right; now left). other. apply set_same_.
    + apply Nat.lt_succ_diag_r.
    + intros y Y. reflexivity.
  - apply M_values with (ce := fun vs => leave d k vs); [apply is_name|apply is_name|apply is_name|exact P|own_name|]. intros vs.
    unfold leave. apply M_escape with (cb := fun d k s => k vs s) (d0 := d) (k0 := k); [own_name|other; apply set_same_|apply is_name|]. apply M_apply; [apply is_name|apply is_name|own_name|apply set_same_].
Qed.
End Meaning.
