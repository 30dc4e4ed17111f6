(** Proofs about case-lambda. *)
From Coq Require Import String List Bool Arith Lia Cantor.
From Verif Require Import SyntaxRules SyntaxRulesSpec PropertiesSyntaxRules Macros MacrosSpec MacrosProofs MacrosEval Guard GuardProofs CaseLambda.
Import ListNotations.
Local Open Scope nat_scope.
Local Arguments sym : simpl never.
Local Arguments alias : simpl never.
Local Arguments ren : simpl never.

(** ** The rules of the local macro *)
Section Inner.
Variable u : nat.
Notation n k := (Id (alias u (sym k))).
Definition D : datum -> bool := compare (n ":::").
Definition L (x : nat) : bool := existsb (compare (Id x)) (elements Nil).
Definition B (x : nat) : bool := compare (Id x) (Id (sym "_")).
Definition F (v x : nat) (d : datum) : bool := compare d (ren v (Id x)).
Definition rule_none : datum * datum := (dlist [n "cl"], dlist [n "error"; Other 2]).
Definition rule_exact : datum * datum :=
  (Pair (n "cl") (Pair (Pair (dlist [n "p"; n ":::"]) (n "body")) (n "rest")),
   dlist [n "if"; dlist [n "="; n "len"; dlist [n "length"; dlist [n "quote"; dlist [n "p"; n ":::"]]]];
          dlist [n "apply"; Pair (n "lambda") (Pair (dlist [n "p"; n ":::"]) (n "body")); n "args"];
          Pair (n "cl") (n "rest")]).
Definition rule_rest : datum * datum :=
  (Pair (n "cl") (Pair (Pair (Pair (n "p") (Pair (n ":::") (n "tail"))) (n "body")) (n "rest")),
   dlist [n "if"; dlist [n ">="; n "len"; dlist [n "length"; dlist [n "quote"; dlist [n "p"; n ":::"]]]];
          dlist [n "apply"; Pair (n "lambda") (Pair (Pair (n "p") (Pair (n ":::") (n "tail"))) (n "body")); n "args"];
          Pair (n "cl") (n "rest")]).
Definition inner_rules : list (datum * datum) := [rule_none; rule_exact; rule_rest].
Lemma D_name k : D (n k) = (sym ":::" =? sym k).
Proof. unfold D. cbn [compare]. now rewrite !root_alias, !(root_even _ (sym_even _)). Qed.
Lemma B_name k : B (alias u (sym k)) = (sym k =? sym "_").
Proof. unfold B. cbn [compare]. now rewrite !root_alias, !(root_even _ (sym_even _)). Qed.
Lemma L_no x : L x = false.
Proof. reflexivity. Qed.
Lemma alias_eqb a b : (alias u a =? alias u b) = (a =? b).
Proof. destruct (Nat.eqb_spec a b) as [->|N]; [apply Nat.eqb_refl|]. apply Nat.eqb_neq. intros H. apply alias_inj in H. tauto. Qed.
Ltac known := repeat match goal with
  | |- context [D (Id (alias u (sym ?k)))] => rewrite (D_name k); let b := eval vm_compute in (sym ":::" =? sym k) in change (sym ":::" =? sym k) with b
  | |- context [B (alias u (sym ?k))] => rewrite (B_name k); let b := eval vm_compute in (sym k =? sym "_") in change (sym k =? sym "_") with b
  | |- context [L ?x] => rewrite (L_no x)
  | |- context [alias u (sym ?k) =? alias u (sym ?l)] => rewrite (alias_eqb (sym k) (sym l)); let b := eval vm_compute in (sym k =? sym l) in change (sym k =? sym l) with b
  end; cbn [orb andb negb].
Ltac sd := cbn [starts dlist]; known; reflexivity.
Ltac careful := cbn [dlist]; repeat first
  [ apply P_id | apply P_nil | apply P_other
  | eapply P_ellipsis with (n := 0); [sd|eexists _, _; split; [reflexivity|split; [sd|split; [reflexivity|sd]]]|now left| |]
  | apply P_pair; [sd|sd| |] ].
Lemma inner_careful : Forall (careful_rule D L B) inner_rules.
Proof.
  repeat constructor.
  - eexists _, _. split; [reflexivity|]. split; [reflexivity|]. split; [constructor|]. split; [cbn [snd rule_none]; careful|].
    cbn [rule_none snd dlist identifiers app In]. intros x [<-|[]]. known. reflexivity.
  - eexists _, _. split; [reflexivity|]. split; [cbn [careful_pattern starts dlist rule_exact fst]; known; cbn [careful_pattern starts]; reflexivity|]. split; [|split; [cbn [snd rule_exact]; careful|]].
    + cbn [variables starts dlist]. known. cbn [variables starts]. known. cbn [app]. apply nodup_b_ok. cbn [nodup_b existsb]. known. reflexivity.
    + cbn [rule_exact snd dlist identifiers app In]. intros x H. repeat destruct H as [<-|H]; try contradiction; known; reflexivity.
  - eexists _, _. split; [reflexivity|]. split; [cbn [careful_pattern starts dlist rule_rest fst]; known; cbn [careful_pattern starts]; reflexivity|]. split; [|split; [cbn [snd rule_rest]; careful|]].
    + cbn [variables starts dlist]. known. cbn [variables starts]. known. cbn [app]. apply nodup_b_ok. cbn [nodup_b existsb]. known. reflexivity.
    + cbn [rule_rest snd dlist identifiers app In]. intros x H. repeat destruct H as [<-|H]; try contradiction; known; reflexivity.
Qed.
Ltac lev := cbn [level starts dlist]; repeat (progress known; cbn [level starts]).
Ltac legal z := cbn [dlist]; repeat first
  [ apply L_nil | apply L_other
  | apply L_id; let k := fresh in let E := fresh in intros k; lev; intros E; injection E as <-; auto; fail
  | apply L_id; let k := fresh in let E := fresh in intros k; lev; intros E; discriminate E
  | eapply L_ellipsis with (n := 0) (x := z) (k := 1); [sd|eexists _, _; split; [reflexivity|split; [sd|split; [reflexivity|sd]]]|now left|lev; reflexivity|cbn; auto| |]
  | apply L_pair; [sd|sd| |] ].
Lemma inner_legal : Forall (legal_rule D L B) inner_rules.
Proof.
  repeat constructor.
  - eexists _, _. split; [reflexivity|]. split; [reflexivity|]. cbn [rule_none snd]. legal (alias u (sym "p")).
  - eexists _, _. split; [reflexivity|]. split; [cbn [legal_pattern starts dlist rule_exact fst]; known; cbn [legal_pattern starts no_ellipsis]; reflexivity|]. cbn [rule_exact snd]. legal (alias u (sym "p")).
  - eexists _, _. split; [reflexivity|]. split; [cbn [legal_pattern starts dlist rule_rest fst]; known; cbn [legal_pattern starts no_ellipsis]; reflexivity|]. cbn [rule_rest snd]. legal (alias u (sym "p")).
Qed.
Lemma inner_by v kw args s t d : choose D L B (F v) inner_rules args = Some (s, t) -> instance D (fun x => ren v (Id x)) true s t d ->
  forall d', inner_expands (alias u (sym ":::")) inner_rules v (Pair kw args) d' <-> d' = d.
Proof.
  intros C I.
  assert (E : forall e, compare (n ":::") e = true -> exists x, e = Id x) by (intros [x| | | | | |] X; try discriminate; eauto).
  assert (K : forall fuel e, transformer compare (Id (sym "_")) (n ":::") Nil fuel inner_rules = Ok e ->
    exists m0, forall m, m0 <= m -> expand (ren v) compare (fun _ => Nil) m e (Pair kw args) = Ok d).
  { intros fuel e T. pose proof (C61_rules_partial compare (Id (sym "_")) (n ":::") Nil (ren v) compare (fun _ => Nil) fuel inner_rules e kw args E inner_careful T) as K.
    cbv beta zeta in K. unfold F, D, L, B in C. rewrite C in K. exact (K d I). }
  intros d'. split.
  - intros (fuel & e & m & T & H). destruct (K _ _ T) as [m' K']. specialize (K' (max m m') ltac:(lia)). specialize (H (max m m') ltac:(lia)). congruence.
  - intros ->. destruct (C62_accepted_partial compare (Id (sym "_")) (n ":::") Nil inner_rules E) as [A _]; [|exact inner_careful|].
    { intros [x| | | | | |]; try reflexivity. cbn [compare]. apply Nat.eqb_sym. }
    apply proj1 in A. destruct (A inner_legal) as (fuel & e & T). destruct (K _ _ T) as [m H]. exists fuel, e, m. auto.
Qed.

Notation match_i v := (matching D L B (F v)).
Notation filled_i v := (instance D (fun x => ren v (Id x)) true).
Lemma elements_prepend l y : elements (prepend l (Id y)) = l.
Proof. induction l; cbn; congruence. Qed.
Lemma pairs_prepend l y : pairs (prepend l (Id y)) = length l.
Proof. induction l; cbn; congruence. Qed.
Lemma after_prepend l x : after (length l) (prepend l x) = x.
Proof. induction l; cbn; [now destruct x|assumption]. Qed.
Lemma each_one x l : B x = false -> every (map (fun d => if L x then None else if B x then Some [] else Some [(x, One d)]) l) = Some (map (fun d => [(x, One d)]) l).
Proof. intros Bx. rewrite Bx. cbn. induction l as [|a l IH]; [reflexivity|cbn; rewrite IH; reflexivity]. Qed.
Lemma match_i_each v x r d l z : B x = false -> (pairs r = 0) -> d = prepend l z -> (forall a b, z <> Pair a b) ->
  match_i v (Pair (Id x) (Pair (n ":::") r)) d = both (Some [(x, Many (map One l))]) (match_i v r z).
Proof.
  intros Bx R -> Z. cbn [matching starts]. known. rewrite R. cbn [Nat.leb]. rewrite Nat.sub_0_r.
  assert (P : pairs (prepend l z) = length l /\ elements (prepend l z) = l).
  { clear - Z. induction l as [|a l [IH1 IH2]]; cbn; [|split; congruence]. destruct z; try (split; reflexivity). now edestruct Z. }
  destruct P as [P1 P2]. rewrite P1, P2, firstn_all, after_prepend. cbn [variables]. rewrite L_no, Bx. cbn [orb].
  assert (E := each_one x l Bx). rewrite L_no, Bx in E. cbv beta iota in E.
  etransitivity; [apply (f_equal (fun o => match o with Some ss => both (Some (sequences [x] ss)) (match_i v r z) | None => None end) E)|].
  cbn [sequences map]. rewrite map_map. cbn [get]. rewrite Nat.eqb_refl. reflexivity.
Qed.
Lemma match_i_pair v a q x y : starts D q = false -> match_i v (Pair a q) (Pair x y) = both (match_i v a x) (match_i v q y).
Proof. intros H. cbn [matching]. rewrite H. reflexivity. Qed.
Lemma match_i_variable v x d : B x = false -> match_i v (Id x) d = Some [(x, One d)].
Proof. intros H. cbn [matching]. rewrite L_no, H. reflexivity. Qed.
Lemma filled_i_each v s x l r y : get s x = Some (Many (map One l)) -> D (Id x) = false -> starts D r = false -> filled_i v s r y ->
  filled_i v s (Pair (Id x) (Pair (n ":::") r)) (prepend l y).
Proof.
  intros G Dx S R. assert (A : again s (Id x) = [x]) by (cbn; rewrite G; reflexivity).
  replace (prepend l y) with (prepend (concat (map (fun d => [d]) l)) y) by (f_equal; clear; induction l as [|d l IH]; cbn; congruence).
  apply (I_ellipsis _ _ s (Id x) _ 0 r); [exact Dx| |apply (C_many _ _ s (Id x) 0 (length l))|exact R].
  - exists (n ":::"), r. split; [reflexivity|]. split; [sd|]. split; [reflexivity|exact S].
  - rewrite A. discriminate.
  - intros y'. rewrite A. intros [<-|[]]. eexists. split; [exact G|apply map_length].
  - apply map_length.
  - intros i Hi. rewrite A. rewrite nth_indep with (d' := [Nil]) by now rewrite map_length.
    rewrite (map_nth (fun d => [d])). constructor. constructor.
    assert (P : forall s, get s x = Some (Many (map One l)) -> get (pick i [x] s) x = Some (One (nth i l Nil))).
    { clear. intros s. induction s as [|[z b] s IH]; cbn [get pick map]; [discriminate|]. destruct (Nat.eqb_spec x z) as [<-|N].
      - intros [= ->]. cbn [existsb]. rewrite Nat.eqb_refl. cbn [orb]. now rewrite (map_nth One).
      - exact IH. }
    now apply P.
Qed.
Ltac got := cbn [app get]; known; reflexivity.
Ltac fill_i := repeat first
  [ apply I_nil | apply I_other
  | apply I_variable; got
  | apply (I_name _ (fun x => ren _ (Id x))); got
  | eapply filled_i_each; [got|sd|sd|]
  | apply I_pair; [intros _; split; sd| |] ].
Notation nn v k := (Id (alias v (alias u (sym k)))).
Lemma inner_none v kw d : inner_expands (alias u (sym ":::")) inner_rules v (Pair kw Nil) d <-> d = dlist [nn v "error"; Other 2].
Proof. eapply inner_by; [reflexivity|]. cbn [dlist]. fill_i. Qed.
Lemma inner_exact v kw ps body rest d : inner_expands (alias u (sym ":::")) inner_rules v (Pair kw (Pair (Pair (dlist ps) body) rest)) d <->
  d = dlist [nn v "if"; dlist [nn v "="; nn v "len"; dlist [nn v "length"; dlist [nn v "quote"; dlist ps]]];
             dlist [nn v "apply"; Pair (nn v "lambda") (Pair (dlist ps) body); nn v "args"]; Pair (nn v "cl") rest].
Proof.
  eapply inner_by.
  - unfold inner_rules, rule_none, rule_exact. cbn [choose dlist].
    replace (match_i v Nil (Pair (Pair (dlist ps) body) rest)) with (@None bindings) by reflexivity.
    rewrite match_i_pair by sd. rewrite match_i_pair by sd.
    rewrite (match_i_each v _ Nil (dlist ps) ps Nil) by (try rewrite prepend_nil; try discriminate; try reflexivity; known; reflexivity).
    rewrite !match_i_variable by (known; reflexivity). cbn [both app matching]. reflexivity.
  - cbn [dlist]. rewrite <- (prepend_nil ps). fill_i.
Qed.
Lemma inner_rest v kw ps y body rest d : inner_expands (alias u (sym ":::")) inner_rules v (Pair kw (Pair (Pair (prepend ps (Id y)) body) rest)) d <->
  d = dlist [nn v "if"; dlist [nn v ">="; nn v "len"; dlist [nn v "length"; dlist [nn v "quote"; dlist ps]]];
             dlist [nn v "apply"; Pair (nn v "lambda") (Pair (prepend ps (Id y)) body); nn v "args"]; Pair (nn v "cl") rest].
Proof.
  eapply inner_by.
  - unfold inner_rules, rule_none, rule_exact, rule_rest. cbn [choose dlist].
    replace (match_i v Nil (Pair (Pair (prepend ps (Id y)) body) rest)) with (@None bindings) by reflexivity.
    rewrite match_i_pair by sd. rewrite match_i_pair by sd.
    rewrite (match_i_each v _ Nil _ ps (Id y)) by (try discriminate; try reflexivity; known; reflexivity).
    replace (match_i v Nil (Id y)) with (@None bindings) by reflexivity. cbn [both].
    rewrite match_i_pair by sd. rewrite match_i_pair by sd.
    rewrite (match_i_each v _ (n "tail") _ ps (Id y)) by (try discriminate; try reflexivity; known; reflexivity).
    rewrite !match_i_variable by (known; reflexivity). cbn [both app]. reflexivity.
  - cbn [dlist]. rewrite <- (prepend_nil ps). fill_i.
Qed.
End Inner.

(** ** The rule of case-lambda *)
Lemma match_clauses u x y (cs : list (datum * list datum)) : blank_ x = false -> blank_ y = false -> dots_ (Id y) = false -> x <> y ->
  match_ u (Pair (Pair (Id x) (Pair (Id y) (Pair (Id (sym "...")) Nil))) (Pair (Id (sym "...")) Nil)) (dlist (map (fun c => Pair (fst c) (dlist (snd c))) cs)) =
  Some [(x, Many (map (fun c => One (fst c)) cs)); (y, Many (map (fun c => Many (map One (snd c))) cs))].
Proof.
  intros Bx By Dy N. remember (Pair (Id x) (Pair (Id y) (Pair (Id (sym "...")) Nil))) as p eqn:Ep.
  assert (V : variables dots_ literal_ blank_ p = [x; y]).
  { rewrite Ep. cbn [variables starts]. replace (dots_ (Id (sym "..."))) with true by reflexivity.
    cbn [literal_ elements existsb orb]. rewrite Bx, By, Dy. reflexivity. }
  assert (M : forall c : datum * list datum, match_ u p (Pair (fst c) (dlist (snd c))) = Some [(x, One (fst c)); (y, Many (map One (snd c)))]).
  { intros c. rewrite Ep, match_pair by exact Dy. rewrite match_variable by exact Bx. rewrite match_each by exact By. reflexivity. }
  assert (E : every (map (match_ u p) (map (fun c : datum * list datum => Pair (fst c) (dlist (snd c))) cs)) = Some (map (fun c => [(x, One (fst c)); (y, Many (map One (snd c)))]) cs)).
  { rewrite map_map, (map_ext _ _ M). clear. induction cs as [|a l IH]; [reflexivity|cbn; rewrite IH; reflexivity]. }
  clear M Ep. cbn [matching starts]. replace (dots_ (Id (sym "..."))) with true by reflexivity. cbn [pairs]. rewrite pairs_dlist, Nat.sub_0_r. cbn [Nat.leb].
  rewrite elements_dlist, firstn_all, after_dlist, V.
  etransitivity; [apply (f_equal (fun o => match o with Some ss => both (Some (sequences [x; y] ss)) (if same Nil Nil then Some [] else None) | None => None end) E)|].
  cbn [sequences map both app]. rewrite !map_map. cbn [get]. rewrite !Nat.eqb_refl. apply not_eq_sym, Nat.eqb_neq in N. rewrite N. reflexivity.
Qed.
Lemma filled_clauses u s x y (cs : list (datum * list datum)) r d : get s x = Some (Many (map (fun c => One (fst c)) cs)) -> get s y = Some (Many (map (fun c => Many (map One (snd c))) cs)) ->
  dots_ (Id x) = false -> dots_ (Id y) = false -> x <> y -> get s (sym "...") = None -> starts dots_ r = false -> filled u s r d ->
  filled u s (Pair (Pair (Id x) (Pair (Id y) (Pair (Id (sym "...")) Nil))) (Pair (Id (sym "...")) r)) (prepend (map (fun c => Pair (fst c) (dlist (snd c))) cs) d).
Proof.
  intros Gx Gy Dx Dy N Gd S R. set (t := Pair (Id x) (Pair (Id y) (Pair (Id (sym "...")) Nil))).
  assert (A : again s t = [x; y]) by (cbn; rewrite Gx, Gy, Gd; reflexivity).
  replace (prepend (map (fun c => Pair (fst c) (dlist (snd c))) cs) d) with (prepend (concat (map (fun c => [Pair (fst c) (dlist (snd c))]) cs)) d) by (f_equal; clear; induction cs as [|c l IH]; cbn; congruence).
  apply (I_ellipsis _ _ s t _ 0 r); [reflexivity| |apply (C_many _ _ s t 0 (length cs))|exact R].
  - exists (Id (sym "...")), r. repeat split; assumption.
  - rewrite A. discriminate.
  - intros z. rewrite A. intros [<-|[<-|[]]]; eexists; (split; [eassumption|apply map_length]).
  - apply map_length.
  - intros i Hi. rewrite A. rewrite nth_indep with (d' := [Pair (fst (Nil, @nil datum)) (dlist (snd (Nil, @nil datum)))]) by now rewrite map_length.
    rewrite (map_nth (fun c : datum * list datum => [Pair (fst c) (dlist (snd c))])). constructor. set (c := nth i cs (Nil, [])).
    assert (P : forall z l, z = x \/ z = y -> get s z = Some (Many l) -> get (pick i [x; y] s) z = Some (nth i l (One Nil))).
    { clear - N. intros z l Z. induction s as [|[w b] s IH]; cbn [get pick map]; [discriminate|]. destruct (Nat.eqb_spec z w) as [<-|M].
      - intros [= ->]. replace (existsb (Nat.eqb z) [x; y]) with true; [reflexivity|]. symmetry. apply existsb_exists. exists z. split; [cbn; intuition|apply Nat.eqb_refl].
      - exact IH. }
    apply I_pair; [intros _; split; [exact Dx|exact Dy]| |].
    + apply I_variable. rewrite (P x _ (or_introl eq_refl) Gx). rewrite nth_indep with (d' := One (fst (Nil, @nil datum))) by now rewrite map_length.
      now rewrite (map_nth (fun c : datum * list datum => One (fst c))).
    + rewrite <- prepend_nil. eapply filled_each; [|exact Dy|reflexivity|apply I_nil].
      rewrite (P y _ (or_intror eq_refl) Gy). rewrite nth_indep with (d' := Many (map One (snd (Nil, @nil datum)))) by now rewrite map_length.
      now rewrite (map_nth (fun c : datum * list datum => Many (map One (snd c)))).
Qed.
Definition case_lambda_rules := Eval vm_compute in rules_of case_lambda_text.
Definition by_case_lambda := by_rules case_lambda_text case_lambda_rules ltac:(vm_compute; reflexivity) ltac:(vm_compute; reflexivity) ltac:(vm_compute; reflexivity).
Definition rules_form (u : nat) : datum := dlist (map (fun r => dlist [fst r; snd r]) (inner_rules u)).
Lemma case_lambda_1 u kw cs : expands case_lambda_text u (case_lambda_form kw cs)
  (dlist [name u "lambda"; name u "args";
    dlist [name u "let"; dlist [dlist [name u "len"; dlist [name u "length"; name u "args"]]];
      dlist [name u "letrec-syntax"; dlist [dlist [name u "cl"; Pair (name u "syntax-rules") (Pair (name u ":::") (Pair Nil (rules_form u)))]];
        Pair (name u "cl") (dlist (map clause_form cs))]]]).
Proof.
  unfold case_lambda_form. replace (map clause_form cs) with (map (fun c : datum * list datum => Pair (fst c) (dlist (snd c))) (map (fun c => (form_of (fst c), snd c)) cs)) by now rewrite map_map.
  generalize (map (fun c : formals * list datum => (form_of (fst c), snd c)) cs). clear cs. intros cs.
  step by_case_lambda case_lambda_rules. { rewrite match_clauses by (first [reflexivity|discriminate]). reflexivity. }
  unfold rules_form, inner_rules, rule_none, rule_exact, rule_rest. cbn [dlist map fst snd]. rewrite <- prepend_nil.
  repeat first
  [ apply I_nil | apply I_bool | apply I_other
  | apply filled_name; [reflexivity|vm_compute; reflexivity]
  | eapply filled_clauses; [reflexivity|reflexivity|reflexivity|reflexivity|discriminate|reflexivity|reflexivity|]
  | apply I_pair; [intros _; split; reflexivity| |] ].
Qed.
