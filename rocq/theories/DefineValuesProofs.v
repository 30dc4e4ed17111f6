(** Proofs about define-values. *)
From Coq Require Import String List Bool Arith Lia.
From Verif Require Import SyntaxRules SyntaxRulesSpec Macros MacrosSpec MacrosProofs MacrosEval RecordMacrosProofs DefineValues.
Import ListNotations.
Local Open Scope nat_scope.
Local Arguments sym : simpl never.
Local Arguments alias : simpl never.
Local Arguments ren : simpl never.
Local Arguments set : simpl never.
Definition define_values_rules := Eval vm_compute in rules_of define_values_text.
Definition by_define_values := by_rules define_values_text define_values_rules
  ltac:(vm_compute; reflexivity) ltac:(vm_compute; reflexivity) ltac:(vm_compute; reflexivity).
Notation name u k := (Id (alias u (sym k))).
Notation match_ u := (matching dots_ literal_ blank_ (fits_ u)).
(** (x ... y), (x ... . y) *)
Lemma match_last u x y l d : blank_ x = false -> blank_ y = false ->
  match_ u (Pair (Id x) (Pair (Id (sym "...")) (Pair (Id y) Nil))) (dlist (l ++ [d])) = Some [(x, Many (map One l)); (y, One d)].
Proof.
  intros Bx By. cbn [matching starts]. replace (dots_ (Id (sym "..."))) with true by reflexivity. cbn [pairs]. rewrite pairs_dlist, app_length. cbn [length].
  replace (1 <=? length l + 1) with true by (symmetry; apply Nat.leb_le; lia). replace (length l + 1 - 1) with (length l) by lia.
  rewrite elements_dlist. rewrite firstn_app, Nat.sub_diag, firstn_O, app_nil_r, firstn_all. cbn [literal_ elements existsb]. rewrite Bx, By. cbn [orb].
  assert (A : after (length l) (dlist (l ++ [d])) = dlist [d]) by (clear; induction l; cbn; auto). rewrite A. cbn [dlist].
  assert (E : every (map (fun d => Some [(x, One d)]) l) = Some (map (fun d => [(x, One d)]) l)) by (clear; induction l as [|a l IH]; [reflexivity|cbn; rewrite IH; reflexivity]).
  cbn [variables literal_ elements existsb orb]. rewrite Bx.
  etransitivity; [apply (f_equal (fun o => match o with Some ss => both (Some (sequences [x] ss)) (Some [(y, One d)]) | None => None end) E)|].
  cbn [sequences map both app]. rewrite map_map. cbn [get]. rewrite Nat.eqb_refl. reflexivity.
Qed.
Lemma match_rest u x y l z : blank_ x = false -> blank_ y = false ->
  match_ u (Pair (Id x) (Pair (Id (sym "...")) (Id y))) (prepend l (Id z)) = Some [(x, Many (map One l)); (y, One (Id z))].
Proof.
  intros Bx By. cbn [matching starts]. replace (dots_ (Id (sym "..."))) with true by reflexivity. cbn [pairs].
  assert (P : pairs (prepend l (Id z)) = length l) by (clear; induction l; cbn; auto). rewrite P, Nat.sub_0_r. cbn [Nat.leb].
  assert (Q : elements (prepend l (Id z)) = l) by (clear; induction l; cbn; congruence). rewrite Q, firstn_all.
  assert (A : after (length l) (prepend l (Id z)) = Id z) by (clear; induction l; cbn; auto). rewrite A. cbn [literal_ elements existsb]. rewrite Bx, By. cbn [orb].
  assert (E : every (map (fun d => Some [(x, One d)]) l) = Some (map (fun d => [(x, One d)]) l)) by (clear; induction l as [|a l IH]; [reflexivity|cbn; rewrite IH; reflexivity]).
  cbn [variables literal_ elements existsb orb]. rewrite Bx.
  etransitivity; [apply (f_equal (fun o => match o with Some ss => both (Some (sequences [x] ss)) (Some [(y, One (Id z))]) | None => None end) E)|].
  cbn [sequences map both app]. rewrite map_map. cbn [get]. rewrite Nat.eqb_refl. reflexivity.
Qed.
Lemma match_last_rest u x y l z : match_ u (Pair (Id x) (Pair (Id (sym "...")) (Pair (Id y) Nil))) (prepend l (Id z)) = None.
Proof.
  cbn [matching starts]. replace (dots_ (Id (sym "..."))) with true by reflexivity. cbn [pairs].
  assert (P : pairs (prepend l (Id z)) = length l) by (clear; induction l; cbn; auto). rewrite P. destruct l as [|a l] using rev_ind; [reflexivity|]. clear IHl.
  rewrite app_length. cbn [length]. replace (1 <=? length l + 1) with true by (symmetry; apply Nat.leb_le; lia). replace (length l + 1 - 1) with (length l) by lia.
  assert (A : after (length l) (prepend (l ++ [a]) (Id z)) = Pair a (Id z)) by (clear; induction l; cbn; auto). rewrite A.
  destruct (every _); [|reflexivity]. cbn [both]. destruct (if literal_ y then _ else _); reflexivity.
Qed.
(** (define id-1 (let ((x (cadr id-0))) (set-cdr! id-0 (cddr id-0)) x)) *)
Definition taking u (x0 x : nat) : datum :=
  dlist [name u "define"; Id x; dlist [name u "let"; dlist [dlist [name u "x"; dlist [name u "cadr"; Id x0]]];
         dlist [name u "set-cdr!"; Id x0; dlist [name u "cddr"; Id x0]]; name u "x"]].
Definition ending u (k : string) (x0 x : nat) : datum :=
  dlist [name u "define"; Id x; dlist [name u "let"; dlist [dlist [name u "x"; dlist [name u k; Id x0]]];
         dlist [name u "set!"; Id x0; dlist [name u "car"; Id x0]]; name u "x"]].
Definition listing u (x : nat) (e : datum) : datum :=
  dlist [name u "define"; Id x; dlist [name u "call-with-values"; dlist [name u "lambda"; Nil; e]; name u "list"]].
Lemma values_1 u kw e : expands define_values_text u (Pair kw (dlist [Nil; e]))
  (dlist [name u "define"; name u "dummy"; dlist [name u "call-with-values"; dlist [name u "lambda"; Nil; e]; dlist [name u "lambda"; name u "xs"; Bool false]]]).
Proof. step by_define_values define_values_rules. { matched. } cbn [dlist]. fill. Qed.
Lemma values_2 u kw x e : expands define_values_text u (Pair kw (dlist [dlist [Id x]; e])) (dlist [name u "define"; Id x; e]).
Proof. step by_define_values define_values_rules. { skip. matched. } cbn [dlist]. fill. Qed.
Lemma values_5 u kw x e : expands define_values_text u (Pair kw (dlist [Id x; e])) (listing u x e).
Proof. step by_define_values define_values_rules. { do 4 skip. matched. } unfold listing. cbn [dlist]. fill. Qed.
Lemma values_3 u kw x0 xs xn e : expands define_values_text u (Pair kw (dlist [dlist (map Id (x0 :: xs ++ [xn])); e]))
  (Pair (name u "begin") (dlist (listing u x0 e :: map (taking u x0) xs ++ [ending u "cadr" x0 xn]))).
Proof.
  step by_define_values define_values_rules.
  { rewrite map_cons, map_app. cbn [map]. skip.
    assert (S2 : match_ u (Pair (Pair (Id 84) Nil) (Pair (Id 78) Nil)) (dlist [dlist (Id x0 :: map Id xs ++ [Id xn]); e]) = None).
    { cbn [dlist]. rewrite match_pair by reflexivity. rewrite match_pair by reflexivity. rewrite match_variable by reflexivity. destruct xs; reflexivity. }
    match goal with |- match ?m with Some _ => _ | None => _ end = _ => replace m with (@None bindings) by (symmetry; exact S2) end.
    cbn [dlist]. repeat first [rewrite match_pair by reflexivity | rewrite match_last by reflexivity | rewrite match_variable by reflexivity | rewrite match_nil]; cbn [both app]; reflexivity. }
  unfold listing, ending. cbn [dlist]. rewrite <- prepend_dlist. cbn [dlist]. fill.
  match goal with |- instance _ _ _ ?s (Pair ?t _) _ => assert (A : again s t = [88]) by reflexivity end.
  eapply (filled_copies _ _ _ (length xs)); [reflexivity|reflexivity|rewrite A; discriminate| |now rewrite map_length| |fill].
  - rewrite A. intros x [<-|[]]; cbn [get Nat.eqb]; eexists; (split; [reflexivity|now rewrite !map_length]).
  - intros i Hi. rewrite A. set (x := nth i xs 0).
    assert (Q : nth i (map (taking u x0) xs) Nil = taking u x0 x). { rewrite (nth_indep _ _ (taking u x0 0)) by now rewrite map_length. apply map_nth. }
    rewrite Q. unfold taking.
    assert (P : nth i (map One (map Id xs)) (One Nil) = One (Id x)). { rewrite map_map. rewrite (nth_indep _ _ (One (Id 0))) by now rewrite map_length. exact (map_nth (fun x => One (Id x)) xs 0 i). }
    cbn [pick map existsb Nat.eqb orb]. rewrite !P. cbn [dlist]. fill.
Qed.
Lemma values_4 u kw x0 xs xn e : expands define_values_text u (Pair kw (dlist [Pair (Id x0) (prepend (map Id xs) (Id xn)); e]))
  (Pair (name u "begin") (dlist (listing u x0 e :: map (taking u x0) xs ++ [ending u "cdr" x0 xn]))).
Proof.
  step by_define_values define_values_rules.
  { skip.
    assert (S2 : match_ u (Pair (Pair (Id 84) Nil) (Pair (Id 78) Nil)) (dlist [Pair (Id x0) (prepend (map Id xs) (Id xn)); e]) = None).
    { cbn [dlist]. rewrite match_pair by reflexivity. rewrite match_pair by reflexivity. rewrite match_variable by reflexivity. destruct xs; reflexivity. }
    match goal with |- match ?m with Some _ => _ | None => _ end = _ => replace m with (@None bindings) by (symmetry; exact S2) end.
    cbn [dlist]. repeat first [rewrite match_pair by reflexivity | rewrite match_last_rest | rewrite match_rest by reflexivity | rewrite match_variable by reflexivity | rewrite match_nil]; cbn [both app]; reflexivity. }
  unfold listing, ending. cbn [dlist]. rewrite <- prepend_dlist. cbn [dlist]. fill.
  match goal with |- instance _ _ _ ?s (Pair ?t _) _ => assert (A : again s t = [88]) by reflexivity end.
  eapply (filled_copies _ _ _ (length xs)); [reflexivity|reflexivity|rewrite A; discriminate| |now rewrite map_length| |fill].
  - rewrite A. intros x [<-|[]]; cbn [get Nat.eqb]; eexists; (split; [reflexivity|now rewrite !map_length]).
  - intros i Hi. rewrite A. set (x := nth i xs 0).
    assert (Q : nth i (map (taking u x0) xs) Nil = taking u x0 x). { rewrite (nth_indep _ _ (taking u x0 0)) by now rewrite map_length. apply map_nth. }
    rewrite Q. unfold taking.
    assert (P : nth i (map One (map Id xs)) (One Nil) = One (Id x)). { rewrite map_map. rewrite (nth_indep _ _ (One (Id 0))) by now rewrite map_length. exact (map_nth (fun x => One (Id x)) xs 0 i). }
    cbn [pick map existsb Nat.eqb orb]. rewrite !P. cbn [dlist]. fill.
Qed.

(** ** Running the definitions *)
Section Run.
Variable user : datum -> vars -> heap -> list value -> vars -> heap -> Prop.
Notation computes := (computes user).
Notation runs := (runs user).
Notation runs_all := (runs_all user).
Ltac heads H := inversion H; subst; try (match goal with P : plain ?d = true, I : is _ ?h |- _ => cbn in P; rewrite (is_odd _ _ I) in P; cbn in P; discriminate P end); try differ.
Ltac same_value := match goal with A : ?k ?x = Some ?a, B : ?k ?x = Some ?b |- _ => tryif constr_eq a b then fail else (rewrite A in B; injection B as B; subst) end.
Lemma run_define g h f x e g' h' : is "define" f ->
  (runs g h (dlist [Id f; Id x; e]) g' h' <-> exists v g1, computes (fun _ => None) g h e v g1 h' /\ g' = define g1 x v).
Proof.
  intros F. split; [|intros (v & g1 & C & ->); now apply R_define].
  intros H. cbn [dlist] in H. inversion H; subst; try differ. eauto.
Qed.
Lemma run_begin g h f ds g' h' : is "begin" f -> (runs g h (Pair (Id f) (dlist ds)) g' h' <-> runs_all g h ds g' h').
Proof.
  intros F. split; [|intros C; now apply R_begin]. intros H. inversion H; subst; try differ.
  match goal with A : dlist _ = dlist ds |- _ => apply dlist_inj in A; subst end. assumption.
Qed.
Lemma run_cons g h d ds g' h' : runs_all g h (d :: ds) g' h' <-> exists g1 h1, runs g h d g1 h1 /\ runs_all g1 h1 ds g' h'.
Proof. split; [intros H; inversion H; subst; eauto|intros (g1 & h1 & R & S); eapply RA_cons; eassumption]. Qed.
Lemma run_nil g h g' h' : runs_all g h [] g' h' <-> g' = g /\ h' = h.
Proof. split; [intros H; inversion H; auto|intros [-> ->]; constructor]. Qed.
Lemma run_app g h ds es g' h' : runs_all g h (ds ++ es) g' h' <-> exists g1 h1, runs_all g h ds g1 h1 /\ runs_all g1 h1 es g' h'.
Proof.
  revert g h. induction ds as [|d ds IH]; intros g h; cbn [app].
  - split; [intros R; exists g, h; split; [constructor|exact R]|]. intros (g1 & h1 & R & S). apply run_nil in R as [-> ->]. exact S.
  - rewrite run_cons. split.
    + intros (g1 & h1 & R & S). apply IH in S as (g2 & h2 & S1 & S2). exists g2, h2. split; [eapply RA_cons; eassumption|exact S2].
    + intros (g2 & h2 & S1 & S2). apply run_cons in S1 as (g1 & h1 & R & S1). exists g1, h1. split; [exact R|]. apply IH. eauto.
Qed.
Lemma compute_list t g h f l k e v g' h' : is "call-with-values" f -> is "lambda" l -> is "list" k -> plain e = true ->
  (computes t g h (dlist [Id f; dlist [Id l; Nil; e]; Id k]) v g' h' <-> exists vs h1, user e g h vs g' h1 /\ list_of h1 vs = (v, h')).
Proof.
  intros F L K P. split; [|intros (vs & h1 & U & E); eapply C_list; eassumption].
  intros H. cbn [dlist] in H. heads H. eauto.
Qed.
Lemma compute_tmp t g h x v w g' h' : Nat.odd x = true -> t x = Some w -> (computes t g h (Id x) v g' h' <-> v = w /\ g' = g /\ h' = h).
Proof.
  intros O T. split; [|intros (-> & -> & ->); now apply C_tmp]. intros H. inversion H; subst.
  - exfalso. match goal with P : plain (Id x) = true |- _ => cbn in P; unfold Nat.odd in O; rewrite P in O; discriminate end.
  - repeat split; congruence.
Qed.
Lemma compute_cadr t g h f x w v g' h' : is "cadr" f -> Nat.even x = true -> g x = Some w -> (computes t g h (dlist [Id f; Id x]) v g' h' <-> obind (cdr h w) (car h) = Some v /\ g' = g /\ h' = h).
Proof.
  intros F Ev G. split; [|intros (E & -> & ->); eapply C_cadr; eassumption]. intros H. cbn [dlist] in H. heads H.
  same_value. auto.
Qed.
Lemma compute_cddr t g h f x w v g' h' : is "cddr" f -> Nat.even x = true -> g x = Some w -> (computes t g h (dlist [Id f; Id x]) v g' h' <-> obind (cdr h w) (cdr h) = Some v /\ g' = g /\ h' = h).
Proof.
  intros F Ev G. split; [|intros (E & -> & ->); eapply C_cddr; eassumption]. intros H. cbn [dlist] in H. heads H.
  same_value. auto.
Qed.
Lemma compute_car t g h f x w v g' h' : is "car" f -> Nat.even x = true -> g x = Some w -> (computes t g h (dlist [Id f; Id x]) v g' h' <-> car h w = Some v /\ g' = g /\ h' = h).
Proof.
  intros F Ev G. split; [|intros (E & -> & ->); eapply C_car; eassumption]. intros H. cbn [dlist] in H. heads H.
  same_value. auto.
Qed.
Lemma compute_cdr t g h f x w v g' h' : is "cdr" f -> Nat.even x = true -> g x = Some w -> (computes t g h (dlist [Id f; Id x]) v g' h' <-> cdr h w = Some v /\ g' = g /\ h' = h).
Proof.
  intros F Ev G. split; [|intros (E & -> & ->); eapply C_cdr; eassumption]. intros H. cbn [dlist] in H. heads H.
  same_value. auto.
Qed.
Lemma compute_let t g h f x e e1 e2 r g' h' : is "let" f -> Nat.odd x = true ->
  (computes t g h (dlist [Id f; dlist [dlist [Id x; e]]; e1; e2]) r g' h' <->
   exists v g1 h1 w g2 h2, computes t g h e v g1 h1 /\ computes (set value t x v) g1 h1 e1 w g2 h2 /\ computes (set value t x v) g2 h2 e2 r g' h').
Proof.
  intros F O. split; [|intros (v & g1 & h1 & w & g2 & h2 & C1 & C2 & C3); eapply C_let; eassumption].
  intros H. cbn [dlist] in H. heads H. do 6 eexists. split; [eassumption|]. split; eassumption.
Qed.
Lemma compute_set_cdr t g h f x e w g' h' : is "set-cdr!" f -> Nat.even x = true ->
  (computes t g h (dlist [Id f; Id x; e]) w g' h' <-> exists v h1 p a d, computes t g h e v g' h1 /\ g' x = Some (Ref p) /\ nth_error h1 p = Some (a, d) /\ w = Unspecified /\ h' = replace h1 p (a, v)).
Proof.
  intros F Ev. split; [|intros (v & h1 & p & a & d & C & G & N & -> & ->); eapply C_set_cdr; eassumption].
  intros H. cbn [dlist] in H. heads H. do 5 eexists. split; [eassumption|]. split; [eassumption|]. split; [eassumption|]. auto.
Qed.
Lemma compute_set t g h f x e w g' h' : is "set!" f -> Nat.even x = true ->
  (computes t g h (dlist [Id f; Id x; e]) w g' h' <-> exists v o g1, computes t g h e v g1 h' /\ g1 x = Some o /\ w = Unspecified /\ g' = define g1 x v).
Proof.
  intros F Ev. split; [|intros (v & o & g1 & C & G & -> & ->); eapply C_set; eassumption].
  intros H. cbn [dlist] in H. heads H. do 3 eexists. split; [eassumption|]. split; [eassumption|]. auto.
Qed.
Lemma set_same t x v : set value t x v x = Some v.
Proof. unfold set. now rewrite Nat.eqb_refl. Qed.
Lemma take_step u g h x0 x w g' h' : Nat.even x0 = true -> g x0 = Some w ->
  (runs g h (taking u x0 x) g' h' <-> exists p a q b d, w = Ref p /\ nth_error h p = Some (a, Ref q) /\ nth_error h q = Some (b, d) /\ g' = define g x b /\ h' = replace h p (a, d)).
Proof.
  intros Ev G. unfold taking. rewrite run_define by apply is_name. split.
  - intros (v & g1 & C & ->). apply compute_let in C; [|apply is_name|apply alias_odd]. destruct C as (v1 & g2 & h2 & w1 & g3 & h3 & C1 & C2 & C3).
    apply (compute_cadr _ _ _ _ _ w) in C1 as (E1 & -> & ->); [|apply is_name|exact Ev|exact G].
    apply compute_set_cdr in C2 as (v2 & h4 & p & a & d & C2 & G' & N & -> & ->); [|apply is_name|exact Ev].
    apply (compute_cddr _ _ _ _ _ w) in C2 as (E2 & -> & ->); [|apply is_name|exact Ev|exact G]. rewrite G in G'. injection G' as ->.
    apply (compute_tmp _ _ _ _ _ v1) in C3 as (-> & -> & ->); [|apply alias_odd|apply set_same].
    cbn [cdr] in E1, E2. rewrite N in E1, E2. cbn [option_map snd obind] in E1, E2. destruct d as [q| | | |]; try discriminate. cbn [car cdr] in E1, E2.
    destruct (nth_error h q) as [[b d']|] eqn:Q; try discriminate. cbn in E1, E2. injection E1 as <-. injection E2 as <-. exists p, a, q, b, d'. auto.
  - intros (p & a & q & b & d & -> & N & Q & -> & ->). exists b, g. split; [|reflexivity]. apply compute_let; [apply is_name|apply alias_odd|].
    exists b, g, h, Unspecified, g, (replace h p (a, d)). split; [apply (compute_cadr _ _ _ _ _ (Ref p)); [apply is_name|exact Ev|exact G|]; cbn [cdr]; rewrite N; cbn; rewrite Q; auto|].
    split; [apply compute_set_cdr; [apply is_name|exact Ev|]; exists d, h, p, a, (Ref q); split; [apply (compute_cddr _ _ _ _ _ (Ref p)); [apply is_name|exact Ev|exact G|]; cbn [cdr]; rewrite N; cbn; rewrite Q; auto|auto]|].
    apply (compute_tmp _ _ _ _ _ b); [apply alias_odd|apply set_same|auto].
Qed.
Lemma end_cadr u g h x0 x w g' h' : Nat.even x0 = true -> g x0 = Some w ->
  (runs g h (ending u "cadr" x0 x) g' h' <-> exists p a q b d, w = Ref p /\ nth_error h p = Some (a, Ref q) /\ nth_error h q = Some (b, d) /\ g' = define (define g x0 a) x b /\ h' = h).
Proof.
  intros Ev G. unfold ending. rewrite run_define by apply is_name. split.
  - intros (v & g1 & C & ->). apply compute_let in C; [|apply is_name|apply alias_odd]. destruct C as (v1 & g2 & h2 & w1 & g3 & h3 & C1 & C2 & C3).
    apply (compute_cadr _ _ _ _ _ w) in C1 as (E1 & -> & ->); [|apply is_name|exact Ev|exact G].
    apply compute_set in C2 as (v2 & o & g4 & C2 & G' & -> & ->); [|apply is_name|exact Ev].
    apply (compute_car _ _ _ _ _ w) in C2 as (E2 & -> & ->); [|apply is_name|exact Ev|exact G].
    apply (compute_tmp _ _ _ _ _ v1) in C3 as (-> & -> & ->); [|apply alias_odd|apply set_same].
    destruct w as [p| | | |]; try discriminate. cbn [car cdr] in E1, E2. destruct (nth_error h p) as [[a d]|] eqn:N; try discriminate. cbn in E1, E2. injection E2 as <-.
    destruct d as [q| | | |]; try discriminate. cbn [car] in E1. destruct (nth_error h q) as [[b d']|] eqn:Q; try discriminate. cbn in E1. injection E1 as <-. exists p, a, q, b, d'. auto.
  - intros (p & a & q & b & d & -> & N & Q & -> & ->). exists b, (define g x0 a). split; [|reflexivity]. apply compute_let; [apply is_name|apply alias_odd|].
    exists b, g, h, Unspecified, (define g x0 a), h. split; [apply (compute_cadr _ _ _ _ _ (Ref p)); [apply is_name|exact Ev|exact G|]; cbn [cdr]; rewrite N; cbn; rewrite Q; auto|].
    split; [apply compute_set; [apply is_name|exact Ev|]; exists a, (Ref p), g; split; [apply (compute_car _ _ _ _ _ (Ref p)); [apply is_name|exact Ev|exact G|]; cbn [car]; rewrite N; auto|auto]|].
    apply (compute_tmp _ _ _ _ _ b); [apply alias_odd|apply set_same|auto].
Qed.
Lemma end_cdr u g h x0 x w g' h' : Nat.even x0 = true -> g x0 = Some w ->
  (runs g h (ending u "cdr" x0 x) g' h' <-> exists p a d, w = Ref p /\ nth_error h p = Some (a, d) /\ g' = define (define g x0 a) x d /\ h' = h).
Proof.
  intros Ev G. unfold ending. rewrite run_define by apply is_name. split.
  - intros (v & g1 & C & ->). apply compute_let in C; [|apply is_name|apply alias_odd]. destruct C as (v1 & g2 & h2 & w1 & g3 & h3 & C1 & C2 & C3).
    apply (compute_cdr _ _ _ _ _ w) in C1 as (E1 & -> & ->); [|apply is_name|exact Ev|exact G].
    apply compute_set in C2 as (v2 & o & g4 & C2 & G' & -> & ->); [|apply is_name|exact Ev].
    apply (compute_car _ _ _ _ _ w) in C2 as (E2 & -> & ->); [|apply is_name|exact Ev|exact G].
    apply (compute_tmp _ _ _ _ _ v1) in C3 as (-> & -> & ->); [|apply alias_odd|apply set_same].
    destruct w as [p| | | |]; try discriminate. cbn [car cdr] in E1, E2. destruct (nth_error h p) as [[a d]|] eqn:N; try discriminate. cbn in E1, E2. injection E2 as <-. injection E1 as <-. exists p, a, d. auto.
  - intros (p & a & d & -> & N & -> & ->). exists d, (define g x0 a). split; [|reflexivity]. apply compute_let; [apply is_name|apply alias_odd|].
    exists d, g, h, Unspecified, (define g x0 a), h. split; [apply (compute_cdr _ _ _ _ _ (Ref p)); [apply is_name|exact Ev|exact G|]; cbn [cdr]; rewrite N; auto|].
    split; [apply compute_set; [apply is_name|exact Ev|]; exists a, (Ref p), g; split; [apply (compute_car _ _ _ _ _ (Ref p)); [apply is_name|exact Ev|exact G|]; cbn [car]; rewrite N; auto|auto]|].
    apply (compute_tmp _ _ _ _ _ d); [apply alias_odd|apply set_same|auto].
Qed.

(** ** The list in id-0 while its elements are taken *)
Definition ptr (b : nat) (ws : list value) (k : nat) : value := if k <? length ws then Ref (S b + k) else Empty.
Lemma cells_nth p ws k : k < length ws -> nth_error (cells p ws) k = Some (nth k ws Empty, if S k <? length ws then Ref (p + S k) else Empty).
Proof.
  revert p k. induction ws as [|w ws IH]; intros p k L; [cbn in L; lia|]. destruct ws as [|w' ws].
  - destruct k; [reflexivity|cbn in L; lia].
  - destruct k as [|k]; [cbn; now rewrite Nat.add_1_r|]. change (nth_error (cells p (w :: w' :: ws)) (S k)) with (nth_error (cells (S p) (w' :: ws)) k). rewrite IH by (cbn in *; lia).
    replace (S (S k) <? length (w :: w' :: ws)) with (S k <? length (w' :: ws)) by reflexivity. replace (S p + S k) with (p + S (S k)) by lia. reflexivity.
Qed.
Lemma cells_cons b v ws : cells b (v :: ws) = (v, ptr b ws 0) :: cells (S b) ws.
Proof. destruct ws; [reflexivity|]. unfold ptr. cbn [length Nat.ltb Nat.leb]. now rewrite Nat.add_0_r. Qed.
Section Surgery.
Variables (h1 : heap) (v0 : value) (ws : list value).
Notation b := (length h1).
Definition stage (k : nat) : heap := h1 ++ (v0, ptr b ws k) :: cells (S b) ws.
Lemma stage_first k : nth_error (stage k) b = Some (v0, ptr b ws k).
Proof. unfold stage. rewrite nth_error_app2 by lia. now rewrite Nat.sub_diag. Qed.
Lemma stage_cell k j : j < length ws -> nth_error (stage k) (S b + j) = Some (nth j ws Empty, ptr b ws (S j)).
Proof. intros L. unfold stage. rewrite nth_error_app2 by lia. replace (S b + j - b) with (S j) by lia. cbn [nth_error]. rewrite cells_nth by exact L. reflexivity. Qed.
Lemma replace_middle {A} (l : list A) x y m : replace (l ++ x :: m) (length l) y = l ++ y :: m.
Proof. induction l; cbn; congruence. Qed.
Lemma stage_replace k d : replace (stage k) b (v0, ptr b ws d) = stage d.
Proof. apply replace_middle. Qed.
Lemma stage_listed k j : listed (stage k) (ptr b ws j) (skipn j ws).
Proof.
  remember (length ws - j) as n eqn:E. revert j E. induction n as [|n IH]; intros j E; unfold ptr.
  - destruct (Nat.ltb_spec j (length ws)); [lia|]. rewrite skipn_all2 by lia. constructor.
  - destruct (Nat.ltb_spec j (length ws)) as [L|]; [|lia].
    assert (Sk : skipn j ws = nth j ws Empty :: skipn (S j) ws).
    { clear -L. revert j L. induction ws as [|w l IH]; intros j L; [cbn in L; lia|]. destruct j; [reflexivity|]. cbn in L. apply (IH j). lia. }
    rewrite Sk. econstructor; [apply stage_cell; exact L|]. apply IH. lia.
Qed.
Definition defines (g : vars) (bs : list (nat * value)) : vars := fold_left (fun g '(x, v) => define g x v) bs g.
Lemma skipn_S j : j < length ws -> skipn j ws = nth j ws Empty :: skipn (S j) ws.
Proof. revert j. induction ws as [|w l IH]; intros j L; [cbn in L; lia|]. destruct j; [reflexivity|]. cbn in L. apply (IH j). lia. Qed.
Lemma takes_run u x0 : Nat.even x0 = true -> forall xs k g g' h', g x0 = Some (Ref b) -> ~ In x0 xs ->
  (runs_all g (stage k) (map (taking u x0) xs) g' h' <-> (xs = [] \/ k + length xs <= length ws) /\ g' = defines g (combine xs (skipn k ws)) /\ h' = stage (k + length xs)).
Proof.
  intros Ev. induction xs as [|x xs IH]; intros k g g' h' G N; cbn [map].
  - rewrite run_nil. cbn [combine defines length]. rewrite Nat.add_0_r. intuition.
  - rewrite run_cons. assert (N1 : x0 <> x) by (intros ->; apply N; now left). split.
    + intros (g1 & h2 & R & T). apply (take_step _ _ _ _ _ _ _ _ Ev G) in R as (p & a & q & c & d & [= <-] & P & Q & -> & ->).
      rewrite stage_first in P. injection P as <- P. unfold ptr in P. destruct (Nat.ltb_spec k (length ws)) as [L|]; [|discriminate]. injection P as <-. change (nth_error (stage k) (S b + k) = Some (c, d)) in Q. rewrite stage_cell in Q by exact L. injection Q as <- <-.
      rewrite stage_replace in T. apply IH in T as (L' & -> & ->); [|unfold define; destruct (Nat.eqb_spec x0 x); congruence|intros I; apply N; now right].
      split; [right; cbn; destruct L' as [->|L']; cbn in *; lia|]. rewrite (skipn_S k L). cbn [combine length]. split; [reflexivity|]. f_equal. lia.
    + intros (L & -> & ->). assert (Lk : k < length ws) by (destruct L as [L|L]; [discriminate|cbn in L; lia]).
      exists (define g x (nth k ws Empty)), (stage (S k)). split.
      * apply (take_step _ _ _ _ _ _ _ _ Ev G). exists b, v0, (S b + k), (nth k ws Empty), (ptr b ws (S k)). split; [reflexivity|]. split.
        { rewrite stage_first. unfold ptr. destruct (Nat.ltb_spec k (length ws)); [reflexivity|lia]. }
        split; [now apply stage_cell|]. split; [reflexivity|]. symmetry. apply stage_replace.
      * apply IH; [unfold define; destruct (Nat.eqb_spec x0 x); congruence|intros I; apply N; now right|]. destruct L as [L|L]; [discriminate|]. cbn in L. split; [right; lia|].
        rewrite (skipn_S k Lk). cbn [combine length]. split; [reflexivity|]. f_equal. lia.
Qed.
End Surgery.
Lemma defines_other g bs x : ~ In x (map fst bs) -> defines g bs x = g x.
Proof.
  revert g. induction bs as [|[y v] bs IH]; intros g N; [reflexivity|]. cbn in N. unfold defines in *. cbn. rewrite IH by tauto. unfold define. destruct (Nat.eqb_spec x y); [subst; tauto|reflexivity].
Qed.
Lemma defines_same xs vs g : NoDup xs -> length xs <= length vs -> Forall2 (fun x v => defines g (combine xs vs) x = Some v) xs (firstn (length xs) vs).
Proof.
  revert vs g. induction xs as [|x xs IH]; intros [|v vs] g N L; try (cbn in L; lia); try constructor. 
  - inversion N; subst. unfold defines. cbn. fold (defines (define g x v) (combine xs vs)). rewrite defines_other; [unfold define; now rewrite Nat.eqb_refl|].
    intros I. apply in_map_iff in I as ([y w] & <- & I). apply in_combine_l in I. auto.
  - inversion N; subst. cbn in L. apply (IH vs (define g x v)); [assumption|lia].
Qed.
Lemma listing_run u x e g h g' h' : plain e = true ->
  (runs g h (listing u x e) g' h' <-> exists vs g1 h1, user e g h vs g1 h1 /\ g' = define g1 x (fst (list_of h1 vs)) /\ h' = snd (list_of h1 vs)).
Proof.
  intros P. unfold listing. rewrite run_define by apply is_name. split.
  - intros (v & g1 & C & ->). apply compute_list in C; try apply is_name; [|exact P]. destruct C as (vs & h1 & U & E). exists vs, g1, h1. rewrite E. auto.
  - intros (vs & g1 & h1 & U & -> & ->). exists (fst (list_of h1 vs)), g1. split; [|reflexivity]. apply compute_list; try apply is_name; [exact P|]. exists vs, h1. split; [exact U|]. apply surjective_pairing.
Qed.
Lemma stage_kept h1 v0 ws k : kept h1 (stage h1 v0 ws k).
Proof. unfold kept, stage. rewrite firstn_app, Nat.sub_diag, firstn_all. apply app_nil_r. Qed.
Lemma list_kept h1 vs : kept h1 (snd (list_of h1 vs)).
Proof. unfold kept, list_of. cbn [snd]. rewrite firstn_app, Nat.sub_diag, firstn_all. apply app_nil_r. Qed.
Lemma list_stage h1 v ws : list_of h1 (v :: ws) = (Ref (length h1), stage h1 v ws 0).
Proof. unfold list_of, stage. now rewrite cells_cons. Qed.
Lemma list_listed h1 vs : listed (snd (list_of h1 vs)) (fst (list_of h1 vs)) vs.
Proof.
  destruct vs as [|v ws]; [constructor|]. rewrite list_stage. cbn [fst snd]. econstructor; [apply stage_first|]. apply (stage_listed h1 v ws 0 0).
Qed.
Definition after_takes (g1 : vars) (x0 : nat) (h1 : heap) (v0 : value) (xs : list nat) (ws : list value) : vars :=
  define (defines (define g1 x0 (Ref (length h1))) (combine xs ws)) x0 v0.
Lemma fixed_run u x0 xs xn e g h g' h' : Nat.even x0 = true -> ~ In x0 xs -> plain e = true ->
  (runs g h (Pair (name u "begin") (dlist (listing u x0 e :: map (taking u x0) xs ++ [ending u "cadr" x0 xn]))) g' h' <->
   exists v0 ws g1 h1, user e g h (v0 :: ws) g1 h1 /\ length xs < length ws /\
     g' = define (after_takes g1 x0 h1 v0 xs ws) xn (nth (length xs) ws Empty) /\ h' = stage h1 v0 ws (length xs)).
Proof.
  intros Ev N P. rewrite run_begin by apply is_name. rewrite run_cons. split.
  - intros (g1' & h1' & L & R). apply (listing_run _ _ _ _ _ _ _ P) in L as (vs & g1 & h1 & U & -> & ->). apply run_app in R as (g2 & h2 & R1 & R2).
    apply run_cons in R2 as (g3 & h3 & R2 & R3). apply run_nil in R3 as [-> ->].
    destruct vs as [|v0 ws].
    { exfalso. destruct xs as [|x xs].
      - apply run_nil in R1 as [-> ->]. apply (end_cadr _ _ _ _ _ Empty) in R2 as (p & _ & _ & _ & _ & E & _); [discriminate|exact Ev|]. unfold define. now rewrite Nat.eqb_refl.
      - cbn [map] in R1. apply run_cons in R1 as (g4 & h4 & R1 & _). apply (take_step _ _ _ _ _ Empty) in R1 as (p & _ & _ & _ & _ & E & _); [discriminate|exact Ev|]. unfold define. now rewrite Nat.eqb_refl. }
    rewrite list_stage in R1. cbn [fst snd] in R1. apply (takes_run h1 v0 ws u x0 Ev) in R1 as (L & -> & ->); [|unfold define; now rewrite Nat.eqb_refl|exact N].
    cbn [Nat.add skipn] in *. apply (end_cadr _ _ _ _ _ (Ref (length h1))) in R2 as (p & a & q & c & d & [= <-] & Q1 & Q2 & -> & ->); [|exact Ev|].
    2:{ rewrite defines_other; [unfold define; now rewrite Nat.eqb_refl|]. intros I. apply in_map_iff in I as ([y w] & <- & I). apply in_combine_l in I. auto. }
    rewrite stage_first in Q1. injection Q1 as <- Q1. unfold ptr in Q1. destruct (Nat.ltb_spec (length xs) (length ws)) as [Lt|]; [|discriminate]. injection Q1 as <-.
    change (nth_error (stage h1 v0 ws (length xs)) (S (length h1) + length xs) = Some (c, d)) in Q2. rewrite stage_cell in Q2 by exact Lt. injection Q2 as <- <-.
    exists v0, ws, g1, h1. auto.
  - intros (v0 & ws & g1 & h1 & U & Lt & -> & ->). do 2 eexists. split.
    { apply (listing_run _ _ _ _ _ _ _ P). do 3 eexists. split; [exact U|]. split; reflexivity. }
    rewrite list_stage. cbn [fst snd]. apply run_app. do 2 eexists. split.
    { apply (takes_run h1 v0 ws u x0 Ev); [unfold define; now rewrite Nat.eqb_refl|exact N|]. split; [right; cbn; lia|]. split; reflexivity. }
    apply run_cons. do 2 eexists. split; [|apply run_nil; split; reflexivity].
    apply (end_cadr _ _ _ _ _ (Ref (length h1))); [exact Ev| |].
    { rewrite defines_other; [unfold define; now rewrite Nat.eqb_refl|]. intros I. apply in_map_iff in I as ([y w] & <- & I). apply in_combine_l in I. auto. }
    do 5 eexists. split; [reflexivity|]. split; [rewrite stage_first; unfold ptr; cbn [Nat.add]; destruct (Nat.ltb_spec (length xs) (length ws)); [reflexivity|lia]|].
    split; [apply (stage_cell h1 v0 ws _ (length xs) Lt)|]. split; reflexivity.
Qed.
Lemma rest_run u x0 xs xn e g h g' h' : Nat.even x0 = true -> ~ In x0 xs -> plain e = true ->
  (runs g h (Pair (name u "begin") (dlist (listing u x0 e :: map (taking u x0) xs ++ [ending u "cdr" x0 xn]))) g' h' <->
   exists v0 ws g1 h1, user e g h (v0 :: ws) g1 h1 /\ length xs <= length ws /\
     g' = define (after_takes g1 x0 h1 v0 xs ws) xn (ptr (length h1) ws (length xs)) /\ h' = stage h1 v0 ws (length xs)).
Proof.
  intros Ev N P. rewrite run_begin by apply is_name. rewrite run_cons. split.
  - intros (g1' & h1' & L & R). apply (listing_run _ _ _ _ _ _ _ P) in L as (vs & g1 & h1 & U & -> & ->). apply run_app in R as (g2 & h2 & R1 & R2).
    apply run_cons in R2 as (g3 & h3 & R2 & R3). apply run_nil in R3 as [-> ->].
    destruct vs as [|v0 ws].
    { exfalso. destruct xs as [|x xs].
      - apply run_nil in R1 as [-> ->]. apply (end_cdr _ _ _ _ _ Empty) in R2 as (p & _ & _ & E & _); [discriminate|exact Ev|]. unfold define. now rewrite Nat.eqb_refl.
      - cbn [map] in R1. apply run_cons in R1 as (g4 & h4 & R1 & _). apply (take_step _ _ _ _ _ Empty) in R1 as (p & _ & _ & _ & _ & E & _); [discriminate|exact Ev|]. unfold define. now rewrite Nat.eqb_refl. }
    rewrite list_stage in R1. cbn [fst snd] in R1. apply (takes_run h1 v0 ws u x0 Ev) in R1 as (L & -> & ->); [|unfold define; now rewrite Nat.eqb_refl|exact N].
    cbn [Nat.add skipn] in *. apply (end_cdr _ _ _ _ _ (Ref (length h1))) in R2 as (p & a & d & [= <-] & Q1 & -> & ->); [|exact Ev|].
    2:{ rewrite defines_other; [unfold define; now rewrite Nat.eqb_refl|]. intros I. apply in_map_iff in I as ([y w] & <- & I). apply in_combine_l in I. auto. }
    rewrite stage_first in Q1. injection Q1 as <- <-. exists v0, ws, g1, h1. split; [exact U|]. split; [destruct L as [->|L]; cbn; lia|]. auto.
  - intros (v0 & ws & g1 & h1 & U & Lt & -> & ->). do 2 eexists. split.
    { apply (listing_run _ _ _ _ _ _ _ P). do 3 eexists. split; [exact U|]. split; reflexivity. }
    rewrite list_stage. cbn [fst snd]. apply run_app. do 2 eexists. split.
    { apply (takes_run h1 v0 ws u x0 Ev); [unfold define; now rewrite Nat.eqb_refl|exact N|]. split; [right; cbn; lia|]. split; reflexivity. }
    apply run_cons. do 2 eexists. split; [|apply run_nil; split; reflexivity].
    apply (end_cdr _ _ _ _ _ (Ref (length h1))); [exact Ev| |].
    { rewrite defines_other; [unfold define; now rewrite Nat.eqb_refl|]. intros I. apply in_map_iff in I as ([y w] & <- & I). apply in_combine_l in I. auto. }
    do 3 eexists. split; [reflexivity|]. split; [apply stage_first|]. split; reflexivity.
Qed.
(** the variables afterwards *)
Lemma after_first g1 x0 h1 v0 xs ws : after_takes g1 x0 h1 v0 xs ws x0 = Some v0.
Proof. unfold after_takes, define. now rewrite Nat.eqb_refl. Qed.
Lemma after_middle g1 x0 h1 v0 xs ws : NoDup (x0 :: xs) -> length xs <= length ws ->
  Forall2 (fun x v => after_takes g1 x0 h1 v0 xs ws x = Some v) xs (firstn (length xs) ws).
Proof.
  intros N L. inversion N; subst. assert (F := defines_same xs ws (define g1 x0 (Ref (length h1))) H2 L).
  revert F. generalize (firstn (length xs) ws). unfold after_takes. generalize (defines (define g1 x0 (Ref (length h1))) (combine xs ws)). clear -H1.
  intros k l F. induction F as [|x v xs l E F IH]; constructor.
  - unfold define. destruct (Nat.eqb_spec x x0) as [->|]; [destruct H1; now left|exact E].
  - apply IH. intros I. apply H1. now right.
Qed.
Lemma after_other g1 x0 h1 v0 xs ws x : x <> x0 -> ~ In x xs -> after_takes g1 x0 h1 v0 xs ws x = g1 x.
Proof.
  intros D N. unfold after_takes. unfold define at 1. destruct (Nat.eqb_spec x x0); [contradiction|]. rewrite defines_other.
  - unfold define. destruct (Nat.eqb_spec x x0); [contradiction|reflexivity].
  - intros I. apply in_map_iff in I as ([y w] & <- & I). apply in_combine_l in I. auto.
Qed.
Lemma define_all k x v xs l : ~ In x xs -> Forall2 (fun y w => k y = Some w) xs l -> Forall2 (fun y w => define k x v y = Some w) xs l.
Proof.
  intros N F. induction F as [|y w xs l E F IH]; constructor.
  - unfold define. destruct (Nat.eqb_spec y x) as [->|]; [destruct N; now left|exact E].
  - apply IH. intros I. apply N. now right.
Qed.
(** ** define-values *)
Lemma form_prepend xs y : formals_form xs (Some y) = prepend (map Id xs) (Id y).
Proof. induction xs; cbn; congruence. Qed.
Lemma form_dlist xs : formals_form xs None = dlist (map Id xs).
Proof. induction xs; cbn; congruence. Qed.
Lemma split_last {A} (xs : list A) : xs <> [] -> exists ys y, xs = ys ++ [y].
Proof. intros H. destruct (exists_last H) as (ys & y & E). eauto. Qed.
Lemma Forall2_snoc {A B} (R : A -> B -> Prop) l m x y : Forall2 R l m -> R x y -> Forall2 R (l ++ [x]) (m ++ [y]).
Proof. intros F H. apply Forall2_app; [exact F|]. constructor; [exact H|constructor]. Qed.
Lemma firstn_S (ws : list value) n : n < length ws -> firstn (S n) ws = firstn n ws ++ [nth n ws Empty].
Proof. revert n. induction ws as [|w ws IH]; intros n L; [cbn in L; lia|]. destruct n; [reflexivity|]. cbn in L. change (w :: firstn (S n) ws = w :: firstn n ws ++ [nth n ws Empty]). rewrite IH by lia. reflexivity. Qed.
Lemma fixed_defined x0 xs xn v0 ws g1 h1 : NoDup (x0 :: xs ++ [xn]) -> length xs < length ws ->
  values_defined (Formals (x0 :: xs ++ [xn]) None) (v0 :: firstn (S (length xs)) ws) g1 h1
    (define (after_takes g1 x0 h1 v0 xs ws) xn (nth (length xs) ws Empty)) (stage h1 v0 ws (length xs)).
Proof.
  intros N L. assert (N1 : ~ In xn (x0 :: xs)). { intros I. rewrite app_comm_cons in N. apply NoDup_remove in N as [_ N]. rewrite app_nil_r in N. auto. }
  assert (N2 : NoDup (x0 :: xs)). { rewrite app_comm_cons in N. apply NoDup_remove in N as [N _]. now rewrite app_nil_r in N. }
  split; [|split; [apply stage_kept|]].
  - exists (v0 :: firstn (S (length xs)) ws), []. split; [symmetry; apply app_nil_r|]. split; [|reflexivity]. cbn [required]. rewrite firstn_S by exact L. rewrite !app_comm_cons. apply Forall2_snoc.
    + apply define_all; [exact N1|]. constructor; [apply after_first|]. apply after_middle; [exact N2|lia].
    + unfold define. now rewrite Nat.eqb_refl.
  - intros x I _. unfold parameters in I. cbn [required rest] in I. rewrite app_nil_r in I. unfold define. destruct (Nat.eqb_spec x xn) as [->|D]; [destruct I; right; apply in_or_app; right; now left|].
    apply after_other; [intros ->; apply I; now left|]. intros J. apply I. right. apply in_or_app. now left.
Qed.
Lemma rest_defined x0 xs xn v0 ws g1 h1 : NoDup (x0 :: xs ++ [xn]) -> length xs <= length ws ->
  values_defined (Formals (x0 :: xs) (Some xn)) (v0 :: ws) g1 h1
    (define (after_takes g1 x0 h1 v0 xs ws) xn (ptr (length h1) ws (length xs))) (stage h1 v0 ws (length xs)).
Proof.
  intros N L. assert (N1 : ~ In xn (x0 :: xs)). { intros I. rewrite app_comm_cons in N. apply NoDup_remove in N as [_ N]. rewrite app_nil_r in N. auto. }
  assert (N2 : NoDup (x0 :: xs)). { rewrite app_comm_cons in N. apply NoDup_remove in N as [N _]. now rewrite app_nil_r in N. }
  split; [|split; [apply stage_kept|]].
  - exists (v0 :: firstn (length xs) ws), (skipn (length xs) ws). split; [cbn; now rewrite firstn_skipn|]. cbn [required rest]. split.
    + apply define_all; [exact N1|]. constructor; [apply after_first|]. apply after_middle; [exact N2|lia].
    + exists (ptr (length h1) ws (length xs)). split; [unfold define; now rewrite Nat.eqb_refl|apply stage_listed].
  - intros x I _. unfold parameters in I. cbn [required rest] in I. unfold define. destruct (Nat.eqb_spec x xn) as [->|D]; [destruct I; apply in_or_app; right; now left|].
    apply after_other; [intros ->; apply I; now left|]. intros J. apply I. right. apply in_or_app. now left.
Qed.
Lemma Forall2_len {A B} (R : A -> B -> Prop) l m : Forall2 R l m -> length l = length m.
Proof. induction 1; cbn; congruence. Qed.
Lemma bound_length g f vs h : bound g f vs h -> fitting f vs.
Proof.
  intros (ws & us & -> & F & R). unfold fitting. apply Forall2_len in F. rewrite app_length. destruct (rest f); [lia|]. subst. cbn. lia.
Qed.
Theorem define_values_ok u kw f e : NoDup (parameters f) -> Forall (fun x => Nat.even x = true) (parameters f) -> plain e = true ->
  exists d, expands define_values_text u (values_form kw f e) d /\
    (forall g h g' h', runs g h d g' h' -> exists vs ws g1 h1, user e g h vs g1 h1 /\ taken f vs ws /\ values_defined f ws g1 h1 g' h') /\
    (forall g h vs ws g1 h1, user e g h vs g1 h1 -> taken f vs ws -> fitting f ws -> exists g' h', runs g h d g' h' /\ values_defined f ws g1 h1 g' h').
Proof.
  intros N Ev P. destruct f as [xs [y|]]; unfold values_form, form_of; cbn [required rest]; [rewrite form_prepend|rewrite form_dlist].
  - destruct xs as [|x0 xs].
    + cbn [map prepend]. eexists. split; [apply values_5|]. split.
      * intros g h g' h' R. apply (listing_run _ _ _ _ _ _ _ P) in R as (vs & g1 & h1 & U & -> & ->). exists vs, vs, g1, h1. split; [exact U|]. split; [reflexivity|].
        split; [|split; [apply list_kept|]].
        { exists [], vs. split; [reflexivity|]. split; [constructor|]. cbn [rest]. exists (fst (list_of h1 vs)). split; [unfold define; now rewrite Nat.eqb_refl|apply list_listed]. }
        intros x I _. unfold define. destruct (Nat.eqb_spec x y) as [->|]; [destruct I; now left|reflexivity].
      * intros g h vs ws g1 h1 U -> _. do 2 eexists. split; [apply (listing_run _ _ _ _ _ _ _ P); do 3 eexists; split; [exact U|]; split; reflexivity|].
        split; [|split; [apply list_kept|]].
        { exists [], vs. split; [reflexivity|]. split; [constructor|]. cbn [rest]. exists (fst (list_of h1 vs)). split; [unfold define; now rewrite Nat.eqb_refl|apply list_listed]. }
        intros x I _. unfold define. destruct (Nat.eqb_spec x y) as [->|]; [destruct I; now left|reflexivity].
    + cbn [map prepend]. unfold parameters in N, Ev. cbn [required rest app] in N, Ev. assert (Ev0 : Nat.even x0 = true) by now inversion Ev.
      assert (N0 : ~ In x0 xs) by (inversion N as [|? ? N1 N2]; intros I; apply N1, in_or_app; now left).
      eexists. split; [apply values_4|]. split.
      * intros g h g' h' R. apply (rest_run _ _ _ _ _ _ _ _ _ Ev0 N0 P) in R as (v0 & ws & g1 & h1 & U & L & -> & ->). exists (v0 :: ws), (v0 :: ws), g1, h1. split; [exact U|]. split; [reflexivity|]. now apply rest_defined.
      * intros g h vs ws g1 h1 U -> L. unfold fitting in L. cbn in L. destruct vs as [|v0 ws]; [cbn in L; lia|]. cbn in L.
        do 2 eexists. split; [apply (rest_run _ _ _ _ _ _ _ _ _ Ev0 N0 P); do 4 eexists; split; [exact U|]; split; [lia|]; split; reflexivity|]. apply rest_defined; [exact N|lia].
  - destruct xs as [|x0 xs]; [|destruct xs as [|x1 xs]].
    + cbn [map dlist]. eexists. split; [apply values_1|]. split.
      * intros g h g' h' R. apply run_define in R; [|apply is_name]. destruct R as (v & g1 & C & ->). cbn [dlist] in C. pose proof (is_name "call-with-values" u) as F. heads C.
        match goal with U : user e g h ?vs g1 ?h0 |- _ => exists vs, [], g1, h0 end. split; [assumption|]. split; [reflexivity|]. split; [exists [], []; repeat split; constructor|]. split; [apply list_kept|].
        intros x _ E. unfold define. destruct (Nat.eqb_spec x (alias u (sym "dummy"))) as [->|]; [exfalso; assert (O := alias_odd u (sym "dummy")); unfold Nat.odd in O; rewrite E in O; discriminate O|reflexivity].
      * intros g h vs ws g1 h1 U -> _. do 2 eexists. split.
        { apply run_define; [apply is_name|]. do 2 eexists. split; [|reflexivity]. eapply C_none; try apply is_name; [exact P|exact U]. }
        split; [exists [], []; repeat split; constructor|]. split; [apply list_kept|].
        intros x _ E. unfold define. destruct (Nat.eqb_spec x (alias u (sym "dummy"))) as [->|]; [exfalso; assert (O := alias_odd u (sym "dummy")); unfold Nat.odd in O; rewrite E in O; discriminate O|reflexivity].
    + cbn [map]. eexists. split; [apply values_2|]. 
      assert (D : forall v g1 h1, values_defined (Formals [x0] None) [v] g1 h1 (define g1 x0 v) h1).
      { intros v g1 h1. split; [|split; [apply firstn_all|]].
        - exists [v], []. split; [reflexivity|]. split; [|reflexivity]. constructor; [unfold define; now rewrite Nat.eqb_refl|constructor].
        - intros x I _. unfold define. destruct (Nat.eqb_spec x x0) as [->|]; [destruct I; now left|reflexivity]. }
      split.
      * intros g h g' h' R. apply run_define in R; [|apply is_name]. destruct R as (v & g1 & C & ->).
        assert (U : user e g h [v] g1 h').
        { clear -C P. inversion C; subst; try assumption; exfalso;
            try (match goal with I : is _ ?k |- _ => cbn in P; rewrite (is_odd _ _ I) in P; cbn in P; discriminate P end); try discriminate. }
        exists [v], [v], g1, h'. split; [exact U|]. split; [reflexivity|apply D].
      * intros g h vs ws g1 h1 U -> L. unfold fitting in L. cbn in L. destruct vs as [|v [|]]; try discriminate L.
        do 2 eexists. split; [apply run_define; [apply is_name|]; do 2 eexists; split; [apply C_user; [exact P|exact U]|reflexivity]|]. apply D.
    + destruct (split_last (x1 :: xs)) as (ys & xn & E); [discriminate|]. unfold parameters in N, Ev. cbn [required rest] in N, Ev. rewrite app_nil_r in N, Ev.
      assert (Tk : forall vs ws, taken (Formals (x0 :: x1 :: xs) None) vs ws <-> exists us, vs = ws ++ us) by reflexivity.
      rewrite E in *. clear E x1 xs. assert (Ev0 : Nat.even x0 = true) by now inversion Ev.
      assert (N0 : ~ In x0 ys) by (inversion N as [|? ? N1 N2]; intros I; apply N1, in_or_app; now left).
      eexists. split; [apply values_3|]. split.
      * intros g h g' h' R. apply (fixed_run _ _ _ _ _ _ _ _ _ Ev0 N0 P) in R as (v0 & ws & g1 & h1 & U & L & -> & ->).
        exists (v0 :: ws), (v0 :: firstn (S (length ys)) ws), g1, h1. split; [exact U|]. split; [|now apply fixed_defined].
        apply Tk. exists (skipn (S (length ys)) ws). rewrite <- app_comm_cons, firstn_skipn. reflexivity.
      * intros g h vs ws g1 h1 U T L. apply Tk in T as (us & ->). unfold fitting in L. cbn [required rest] in L. destruct ws as [|v0 ws]; [discriminate L|].
        cbn in L. rewrite app_length in L. cbn in L. do 2 eexists. split.
        { apply (fixed_run _ _ _ _ _ _ _ _ _ Ev0 N0 P). do 4 eexists. split; [exact U|]. split; [rewrite app_length; lia|]. split; reflexivity. }
        replace (v0 :: ws) with (v0 :: firstn (S (length ys)) (ws ++ us)); [apply fixed_defined; [exact N|rewrite app_length; lia]|].
        f_equal. rewrite firstn_app. replace (S (length ys) - length ws) with 0 by lia. change (firstn 0 us) with (@nil value). rewrite app_nil_r. apply firstn_all2. lia.
Qed.
End Run.
