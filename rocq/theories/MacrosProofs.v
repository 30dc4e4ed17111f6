(** Proofs about the macros of the library. *)
From Coq Require Import String List Bool Arith Lia Cantor.
From Verif Require Import SyntaxRules SyntaxRulesSpec PropertiesSyntaxRules Macros.
Import ListNotations.
Local Open Scope nat_scope.

(** ** Identifiers *)
Lemma alias_odd u x : Nat.odd (alias u x) = true.
Proof. unfold alias. rewrite Nat.odd_add, Nat.odd_mul. reflexivity. Qed.
Lemma alias_inj u x v y : alias u x = alias v y -> u = v /\ x = y.
Proof. unfold alias. intros H. assert (E : to_nat (u, x) = to_nat (v, y)) by lia. apply to_nat_inj in E. injection E as -> ->. auto. Qed.
Lemma odd_even x : Nat.odd x = true -> Nat.even x = true -> False.
Proof. unfold Nat.odd. destruct (Nat.even x); discriminate. Qed.

(** ** What syntax-rules does with careful rules *)
Definition dots_ : datum -> bool := cmp (Id (sym "...")).
Definition literal_ (x : nat) : bool := existsb (cmp (Id x)) (elements Nil).
Definition blank_ (x : nat) : bool := cmp (Id x) (Id (sym "_")).
Definition fits_ (u : nat) (x : nat) (d : datum) : bool := false.
Fixpoint careful_b (t : datum) : bool :=
  match t with
  | Pair a q =>
    negb (dots_ a) &&
    match q with
    | Pair e r => if dots_ e then negb (starts dots_ r) && careful_b a && careful_b r else careful_b a && careful_b q
    | _ => careful_b a && careful_b q
    end
  | Vec _ => false
  | _ => true
  end.
Lemma careful_b_ok t : careful_b t = true -> careful_template dots_ t.
Proof.
  enough (G : (careful_b t = true -> careful_template dots_ t) /\ match t with Pair _ r => careful_b r = true -> careful_template dots_ r | _ => True end) by apply G.
  induction t as [x| |a IHa q IHq|l|b|n|n]; try (split; [intros H; try discriminate H; constructor|exact Logic.I]; fail).
  split; [|apply IHq]. intros H.
  cbn [careful_b] in H. apply andb_prop in H as [Ha H]. apply negb_true_iff in Ha.
  destruct q as [x| |e r|l|b|n|n]; try (apply andb_prop in H as [H1 H2]; apply P_pair; [exact Ha|reflexivity|apply IHa; exact H1|apply IHq; exact H2]; fail).
  destruct (dots_ e) eqn:E.
  - apply andb_prop in H as [H H3]. apply andb_prop in H as [H1 H2]. apply negb_true_iff in H1.
    apply (P_ellipsis dots_ a (Pair e r) 0 r); [exact Ha| |now left|apply IHa; exact H2|apply IHq; exact H3].
    exists e, r. repeat split; assumption.
  - apply andb_prop in H as [H1 H2]. apply P_pair; [exact Ha|exact E|apply IHa; exact H1|apply IHq; exact H2].
Qed.
Fixpoint nodup_b (l : list nat) : bool := match l with [] => true | x :: l => negb (existsb (Nat.eqb x) l) && nodup_b l end.
Lemma nodup_b_ok l : nodup_b l = true -> NoDup l.
Proof.
  induction l as [|x l IH]; [constructor|]. cbn. intros H. apply andb_prop in H as [H1 H2]. constructor; [|auto]. intros I.
  apply negb_true_iff in H1. enough (existsb (Nat.eqb x) l = true) by congruence. apply existsb_exists. exists x. split; [exact I|apply Nat.eqb_refl].
Qed.
Definition rule_b (r : datum * datum) : bool :=
  match fst r with
  | Pair _ p => careful_pattern dots_ literal_ p && nodup_b (variables dots_ literal_ blank_ p) && careful_b (snd r) &&
                forallb (fun x => negb (blank_ x)) (identifiers (snd r))
  | _ => false
  end.
Lemma rule_b_ok r : rule_b r = true -> careful_rule dots_ literal_ blank_ r.
Proof.
  destruct r as [[x| |k p|l|b|n|n] t]; try discriminate. unfold rule_b. cbn [fst snd]. intros H.
  apply andb_prop in H as [H H4]. apply andb_prop in H as [H H3]. apply andb_prop in H as [H1 H2].
  exists k, p. split; [reflexivity|]. split; [exact H1|]. split; [|split; [apply careful_b_ok; exact H3|]].
  - apply nodup_b_ok. exact H2.
  - intros x I. rewrite forallb_forall in H4. apply H4 in I. now apply negb_true_iff in I.
Qed.
Lemma rules_b_ok rules : forallb rule_b rules = true -> Forall (careful_rule dots_ literal_ blank_) rules.
Proof. intros H. apply Forall_forall. intros r I. apply rule_b_ok. rewrite forallb_forall in H. auto. Qed.

Notation chosen u := (choose dots_ literal_ blank_ (fits_ u)).
Notation filled u := (instance dots_ (fun x => ren u (Id x)) true).
Lemma expands_rules fuel rules e u kw args s t d : forallb rule_b rules = true ->
  transformer cmp (Id (sym "_")) (Id (sym "...")) Nil fuel rules = Ok e ->
  chosen u rules args = Some (s, t) -> filled u s t d ->
  exists n, forall m, n <= m -> expand (ren u) (fun _ _ => false) (fun _ => Nil) m e (Pair kw args) = Ok d.
Proof.
  intros C T H I.
  pose proof (C61_rules_partial cmp (Id (sym "_")) (Id (sym "...")) Nil (ren u) (fun _ _ => false) (fun _ => Nil) fuel rules e kw args) as K.
  specialize (K ltac:(intros [x| | | | | |] X; try discriminate; eauto) (rules_b_ok _ C) T). cbv beta zeta in K.
  assert (H' : choose dots_ literal_ blank_ (fun _ _ => false) rules args = Some (s, t)) by exact H.
  unfold dots_, literal_, blank_ in H'. rewrite H' in K. exact (K d I).
Qed.
Lemma procedure_of_rules text e : procedure_of text = Some e -> exists fuel, transformer cmp (Id (sym "_")) (Id (sym "...")) Nil fuel (rules_of text) = Ok e.
Proof.
  unfold procedure_of. generalize 300. intros fuel H. exists fuel.
  destruct (transformer cmp (Id (sym "_")) (Id (sym "...")) Nil fuel (rules_of text)); congruence.
Qed.
Lemma expands_by text u kw args s t d : forallb rule_b (rules_of text) = true -> (exists e, procedure_of text = Some e) ->
  chosen u (rules_of text) args = Some (s, t) -> filled u s t d -> expands text u (Pair kw args) d.
Proof.
  intros C [e E] H I. destruct (procedure_of_rules _ _ E) as [fuel T]. destruct (expands_rules fuel (rules_of text) e u kw args s t d C T H I) as [n N].
  exists e, n. split; [exact E|exact N].
Qed.
Lemma expands_det text u form d d' : expands text u form d -> expands text u form d' -> d = d'.
Proof.
  intros (e & n & E & H) (e' & n' & E' & H'). rewrite E in E'. injection E' as <-.
  specialize (H (max n n') ltac:(lia)). specialize (H' (max n n') ltac:(lia)). congruence.
Qed.
Definition let_values_rules := Eval vm_compute in rules_of let_values_text.
Definition let_star_values_rules := Eval vm_compute in rules_of let_star_values_text.
Definition receive_rules := Eval vm_compute in rules_of receive_text.
Definition rec_rules := Eval vm_compute in rules_of rec_text.
Lemma by_rules text rules : rules_of text = rules -> forallb rule_b rules = true ->
  match procedure_of text with Some _ => true | None => false end = true ->
  forall u kw args s t d, chosen u rules args = Some (s, t) -> filled u s t d -> expands text u (Pair kw args) d.
Proof. intros <- C P u kw args s t d. apply expands_by; [exact C|]. destruct (procedure_of text); [eauto|discriminate]. Qed.
Definition by_let_values := by_rules let_values_text let_values_rules
  ltac:(vm_compute; reflexivity) ltac:(vm_compute; reflexivity) ltac:(vm_compute; reflexivity).
Definition by_let_star_values := by_rules let_star_values_text let_star_values_rules
  ltac:(vm_compute; reflexivity) ltac:(vm_compute; reflexivity) ltac:(vm_compute; reflexivity).
Definition by_receive := by_rules receive_text receive_rules
  ltac:(vm_compute; reflexivity) ltac:(vm_compute; reflexivity) ltac:(vm_compute; reflexivity).
Definition by_rec := by_rules rec_text rec_rules
  ltac:(vm_compute; reflexivity) ltac:(vm_compute; reflexivity) ltac:(vm_compute; reflexivity).

(** ** Matching and filling in lists *)
Lemma elements_dlist l : elements (dlist l) = l.
Proof. induction l; cbn; congruence. Qed.
Lemma pairs_dlist l : pairs (dlist l) = length l.
Proof. induction l; cbn; congruence. Qed.
Lemma after_dlist l : after (length l) (dlist l) = Nil.
Proof. induction l; cbn; congruence. Qed.
Notation match_ u := (matching dots_ literal_ blank_ (fits_ u)).
Lemma match_each u x l : blank_ x = false -> match_ u (Pair (Id x) (Pair (Id (sym "...")) Nil)) (dlist l) = Some [(x, Many (map One l))].
Proof.
  intros B. cbn [matching starts]. replace (dots_ (Id (sym "..."))) with true by reflexivity. cbn [pairs]. rewrite pairs_dlist, Nat.sub_0_r.
  cbn [Nat.leb]. rewrite elements_dlist, firstn_all, after_dlist. cbn [literal_ elements existsb]. rewrite B. cbn [orb].
  assert (E : every (map (fun d => Some [(x, One d)]) l) = Some (map (fun d => [(x, One d)]) l)) by (induction l as [|a l IH]; [reflexivity|cbn; rewrite IH; reflexivity]).
  cbn [variables literal_ elements existsb orb]. rewrite B.
  etransitivity; [apply (f_equal (fun o => match o with Some ss => both (Some (sequences [x] ss)) (if same Nil Nil then Some [] else None) | None => None end) E)|].
  cbn [sequences map both app]. rewrite map_map. cbn [get]. rewrite Nat.eqb_refl. reflexivity.
Qed.
Lemma match_pair u a q x y : starts dots_ q = false -> match_ u (Pair a q) (Pair x y) = both (match_ u a x) (match_ u q y).
Proof. intros H. cbn [matching]. rewrite H. reflexivity. Qed.
Lemma match_variable u x d : blank_ x = false -> match_ u (Id x) d = Some [(x, One d)].
Proof. intros H. cbn [matching literal_ elements existsb]. rewrite H. reflexivity. Qed.
Lemma match_nil u : match_ u Nil Nil = Some [].
Proof. reflexivity. Qed.
Lemma match_string u n : match_ u (Other n) (Other n) = Some [].
Proof. cbn [matching]. unfold same. destruct (_ : {_ = _} + {_}); congruence. Qed.
Lemma filled_each u s x l r y : get s x = Some (Many (map One l)) -> dots_ (Id x) = false -> starts dots_ r = false -> filled u s r y ->
  filled u s (Pair (Id x) (Pair (Id (sym "...")) r)) (prepend l y).
Proof.
  intros G D S R. assert (A : again s (Id x) = [x]) by (cbn; rewrite G; reflexivity).
  replace (prepend l y) with (prepend (concat (map (fun d => [d]) l)) y) by (f_equal; clear; induction l as [|d l IH]; cbn; congruence).
  apply (I_ellipsis _ _ s (Id x) _ 0 r); [exact D| |apply (C_many _ _ s (Id x) 0 (length l))|exact R].
  - exists (Id (sym "...")), r. repeat split; assumption.
  - rewrite A. discriminate.
  - intros y'. rewrite A. intros [<-|[]]. eexists. split; [exact G|apply map_length].
  - apply map_length.
  - intros i Hi. rewrite A. rewrite nth_indep with (d' := [Nil]) by now rewrite map_length.
    rewrite (map_nth (fun d => [d])). constructor. constructor.
    assert (P : forall s, get s x = Some (Many (map One l)) -> get (pick i [x] s) x = Some (One (nth i l Nil))).
    { clear. intros s. induction s as [|[z b] s IH]; cbn [get pick map]; [discriminate|]. destruct (Nat.eqb_spec x z) as [<-|N].
      - intros [= ->]. cbn [existsb]. rewrite Nat.eqb_refl. cbn [orb]. now rewrite (map_nth One).
      - exact IH. }
    now apply P.
Qed.
Lemma prepend_dlist l m : prepend l (dlist m) = dlist (l ++ m).
Proof. induction l; cbn; congruence. Qed.
Lemma prepend_nil l : prepend l Nil = dlist l.
Proof. induction l; cbn; congruence. Qed.

Lemma filled_name u s x k : get s x = None -> sym k = x -> filled u s (Id x) (Id (alias u (sym k))).
Proof. intros G <-. exact (I_name _ (fun x => ren u (Id x)) true s (sym k) G). Qed.
(** ** One step of each macro *)
Ltac matched := cbn [dlist]; repeat first [rewrite match_pair by reflexivity | rewrite match_each by reflexivity | rewrite match_variable by reflexivity
  | rewrite match_nil | rewrite match_string]; cbn [both app]; reflexivity.
Ltac fill := repeat first
  [ apply I_nil | apply I_bool | apply I_other
  | apply I_variable; reflexivity
  | apply filled_name; [reflexivity|vm_compute; reflexivity]
  | eapply filled_each; [reflexivity|reflexivity|reflexivity|]
  | apply I_pair; [intros _; split; reflexivity| |] ].
Ltac step by_ r := eapply by_; [unfold r; cbn [choose]|].
Notation name u k := (Id (alias u (sym k))).
Lemma let_values_1 u kw bs b0 b1 : expands let_values_text u (Pair kw (Pair (dlist bs) (Pair b0 (dlist b1))))
  (dlist [name u "let-values"; Other 0; dlist bs; Nil; Pair (name u "begin") (Pair b0 (dlist b1))]).
Proof.
  step by_let_values let_values_rules. { matched. } cbn [dlist]. rewrite <- (prepend_nil bs), <- (prepend_nil b1). fill.
Qed.
Ltac skip := match goal with |- match ?m with Some _ => _ | None => _ end = _ =>
  let H := fresh in assert (H : m = None) by (cbn [dlist map]; repeat first [rewrite match_pair by reflexivity | rewrite match_variable by reflexivity | rewrite match_string]; reflexivity);
  rewrite H; clear H end.
Lemma let_values_2 u kw tmps body : expands let_values_text u (Pair kw (dlist [Other 0; Nil; tmps; body])) (dlist [name u "let"; tmps; body]).
Proof. step by_let_values let_values_rules. { skip. matched. } cbn [dlist]. fill. Qed.
Lemma let_values_3 u kw b0 e0 bs tmps body : expands let_values_text u (Pair kw (dlist [Other 0; dlist (dlist [b0; e0] :: bs); tmps; body]))
  (dlist [name u "let-values"; Other 1; b0; e0; Nil; dlist bs; tmps; body]).
Proof. step by_let_values let_values_rules. { do 2 skip. matched. } cbn [dlist]. rewrite <- (prepend_nil bs). fill. Qed.
Lemma let_values_4 u kw e0 args bs tmps body : expands let_values_text u (Pair kw (dlist [Other 1; Nil; e0; args; bs; tmps; body]))
  (dlist [name u "call-with-values"; dlist [name u "lambda"; Nil; e0];
          Pair (name u "lambda") (Pair args (dlist [dlist [name u "let-values"; Other 0; bs; tmps; body]]))]).
Proof. step by_let_values let_values_rules. { do 3 skip. matched. } cbn [dlist]. fill. Qed.
Lemma let_values_5 u kw a b e0 args bs tmps body : expands let_values_text u (Pair kw (dlist [Other 1; Pair a b; e0; dlist args; bs; dlist tmps; body]))
  (dlist [name u "let-values"; Other 1; b; e0; dlist (args ++ [name u "x"]); bs; dlist (tmps ++ [dlist [a; name u "x"]]); body]).
Proof. step by_let_values let_values_rules. { do 4 skip. matched. } cbn [dlist]. rewrite <- !prepend_dlist. cbn [dlist]. fill. Qed.
Lemma let_values_6 u kw a e0 args bs tmps body : expands let_values_text u (Pair kw (dlist [Other 1; Id a; e0; dlist args; bs; dlist tmps; body]))
  (dlist [name u "call-with-values"; dlist [name u "lambda"; Nil; e0];
          Pair (name u "lambda") (Pair (prepend args (name u "x"))
            (dlist [dlist [name u "let-values"; Other 0; bs; dlist (tmps ++ [dlist [Id a; name u "x"]]); body]]))]).
Proof. step by_let_values let_values_rules. { do 5 skip. matched. } cbn [dlist]. rewrite <- !prepend_dlist. cbn [dlist]. fill. Qed.
Lemma let_star_values_1 u kw b0 b1 : expands let_star_values_text u (Pair kw (Pair Nil (Pair b0 (dlist b1)))) (Pair (name u "let") (Pair Nil (Pair b0 (dlist b1)))).
Proof. step by_let_star_values let_star_values_rules. { matched. } rewrite <- (prepend_nil b1). fill. Qed.
Lemma let_star_values_2 u kw c cs b0 b1 : expands let_star_values_text u (Pair kw (Pair (dlist (c :: cs)) (Pair b0 (dlist b1))))
  (dlist [name u "let-values"; dlist [c]; Pair (name u "let*-values") (Pair (dlist cs) (Pair b0 (dlist b1)))]).
Proof. step by_let_star_values let_star_values_rules. { skip. matched. } cbn [dlist]. rewrite <- (prepend_nil b1), <- (prepend_nil cs). fill. Qed.
Lemma receive_1 u kw f e body : expands receive_text u (Pair kw (Pair f (Pair e (dlist body))))
  (dlist [name u "call-with-values"; dlist [name u "lambda"; Nil; e]; Pair (name u "lambda") (Pair f (dlist body))]).
Proof. step by_receive receive_rules. { matched. } cbn [dlist]. rewrite <- (prepend_nil body). fill. Qed.
Lemma rec_1 u kw x fs body : expands rec_text u (Pair kw (Pair (Pair (Id x) fs) body))
  (dlist [name u "letrec"; dlist [dlist [Id x; Pair (name u "lambda") (Pair fs body)]]; Id x]).
Proof. step by_rec rec_rules. { matched. } cbn [dlist]. fill. Qed.
Lemma rec_2 u kw x e : expands rec_text u (Pair kw (dlist [Id x; e])) (dlist [name u "letrec"; dlist [dlist [Id x; e]]; Id x]).
Proof. step by_rec rec_rules. { skip. matched. } cbn [dlist]. fill. Qed.

