(** Whole programs: the results of compiling and running the forms of a program one after the other. *)
From Coq Require Import ZArith List Bool Lia.
From Verif Require Import Machine Generator Evaluate CoreSemantics CompilerProofs Simulation CompilerCorrect.
Import ListNotations.

(** ** Every evaluation has a space need *)
Section Space.
Variable object : nat -> option nat.
Variable prim : nat -> sstore -> list sval -> sval -> sstore -> Prop.
Scheme eval_mind := Minimality for eval Sort Prop
  with evals_mind := Minimality for evals Sort Prop
  with evalb_mind := Minimality for evalb Sort Prop
  with apply_mind := Minimality for CoreSemantics.apply Sort Prop.
Combined Scheme eval_mutind from eval_mind, evals_mind, evalb_mind, apply_mind.
Lemma eval_space :
  (forall r e s v s', eval object prim r e s v s' -> forall t, exists n, evaln object prim t r e s v s' n) /\
  (forall r es s vs s', evals object prim r es s vs s' -> exists n, evalsn object prim r es s vs s' n) /\
  (forall r es s v s', evalb object prim r es s v s' -> forall t, exists n, evalbn object prim t r es s v s' n) /\
  (forall f vs s v s', CoreSemantics.apply object prim f vs s v s' -> exists n, applyn object prim f vs s v s' n).
Proof.
  apply eval_mutind; intros;
    repeat match goal with
           | H : forall t : bool, exists n, evaln _ _ t _ ?e _ _ _ n |- _ =>
             let n := fresh "n" in let F := fresh "F" in let m := fresh "m" in let T := fresh "T" in
             destruct (H false) as (n & F); destruct (H true) as (m & T); clear H
           | H : forall t : bool, exists n, evalbn _ _ t _ ?e _ _ _ n |- _ =>
             let n := fresh "n" in let F := fresh "F" in let m := fresh "m" in let T := fresh "T" in
             destruct (H false) as (n & F); destruct (H true) as (m & T); clear H
           | H : exists n, _ |- _ => let n := fresh "n" in let F := fresh "F" in destruct H as (n & F)
           end; try (destruct t); eexists; solve [econstructor; solve [eauto]].
Qed.
End Space.

(** ** Growing the set of known globals *)
Lemma assq_gext u kw G G' x n : gext u G G' -> wf_genv kw G -> assq x (scope G) = Some n -> nth_error (cells G') n = nth_error (cells G) n.
Proof.
  intros X W H. destruct (ge_cells _ _ _ X) as (k & ->). apply nth_error_app1. eapply wg_bound; eauto.
Qed.
Lemma rel_gext object kw u G G' K s h : rel object kw (scope G) K s h (cells G) -> gext u G G' -> wf_genv kw G' ->
  rel object kw (scope G') K s h (cells G').
Proof.
  intros R X W. pose proof (r_genv _ _ _ _ _ _ _ _ R) as W0. split; try apply R.
  - intro p. pose proof (r_cells _ _ _ _ _ _ _ _ R p) as Hc. unfold cell_ok in *. destruct (K p) as [|l|a d|ls e]; try exact Hc.
    destruct Hc as (c & o & H1 & H2 & H3). exists c, o. split; [exact H1|]. split; [exact H2|].
    destruct H3; econstructor; eauto. eapply code_body_mono; [apply X|assumption].
  - intros x v H. destruct (r_globals _ _ _ _ _ _ _ _ R x v H) as (n & w & H1 & H2 & H3). exists n, w.
    split; [apply X; exact H1|]. split; [|exact H3]. rewrite <- H2. apply (assq_gext u kw G G' x n X); [|exact H1].
    destruct G. exact W0.
  - destruct G'. exact W.
Qed.

(** ** Runs and fuel *)
Lemma run_mono proc k : forall m st r, run proc m st = Some r -> m <= k -> run proc k st = Some r.
Proof.
  induction k as [|k IH]; intros m st r H L; destruct m as [|m]; cbn in H; try discriminate; [lia|].
  cbn. destruct (step proc st); try exact H. apply (IH m); [exact H|lia].
Qed.
Lemma steps_run proc B st st' m r : steps proc B st st' -> run proc m st' = Some r -> exists k, run proc k st = Some r.
Proof.
  intros H Hr. induction H as [|st st1 st2 L Hs H IH]; [eauto|]. destruct (IH Hr) as (k & Hk). exists (S k). cbn. rewrite Hs. exact Hk.
Qed.

(** more fuel does not change the generated code *)
Definition le_res (r r' : gres) : Prop := r = GFuel \/ r = r'.
Lemma le_res_bind m m' k k' : le_res m m' -> (forall c G, le_res (k c G) (k' c G)) -> le_res (gbind m k) (gbind m' k').
Proof. intros [->| ->] H; [left; reflexivity|]. destruct m' as [c G| | |]; cbn; [apply H|right|right|right]; reflexivity. Qed.
Lemma le_res_refl r : le_res r r. Proof. right. reflexivity. Qed.
Section Mono.
Variable unspecified undefined : val.
Notation generate := (generate unspecified undefined).
Notation generate_syntax := (generate_syntax unspecified undefined).
Notation lambda := (lambda unspecified undefined).
Notation operand := (operand unspecified undefined).
Notation body := (body unspecified undefined).
Notation sequence := (sequence unspecified undefined).
Lemma fuel_step : forall k,
  (forall G f bv c t, le_res (generate k G f bv c t) (generate (S k) G f bv c t)) /\
  (forall kw G f bv c t, le_res (generate_syntax k kw G f bv c t) (generate_syntax (S k) kw G f bv c t)) /\
  (forall G f bv c, le_res (lambda k G f bv c) (lambda (S k) G f bv c)) /\
  (forall G f bv c, le_res (operand k G f bv c) (operand (S k) G f bv c)) /\
  (forall G f bv c, le_res (body k G f bv c) (body (S k) G f bv c)) /\
  (forall G f bv c t, le_res (sequence k G f bv c t) (sequence (S k) G f bv c t)).
Proof.
  induction k as [|k (Hg & Hs & Hl & Ho & Hb & Hq)]; [repeat split; intros; left; reflexivity|].
  split; [|split; [|split; [|split; [|split]]]].
  - intros G f bv c t. destruct f as [v|x|p a d]; try apply le_res_refl.
    change (le_res (match syntax_of G bv a with
                    | None => gbind (generate k G a bv (if t then [ITailCall] else ICall :: c) false) (fun c G => operand k G d bv c)
                    | Some kw => generate_syntax k kw G d bv c t end)
                   (match syntax_of G bv a with
                    | None => gbind (generate (S k) G a bv (if t then [ITailCall] else ICall :: c) false) (fun c G => operand (S k) G d bv c)
                    | Some kw => generate_syntax (S k) kw G d bv c t end)).
    destruct (syntax_of G bv a); [apply Hs|]. apply le_res_bind; [apply Hg|intros; apply Ho].
  - intros kw G f bv c t. destruct kw.
    + change (le_res (sequence k G f bv c t) (sequence (S k) G f bv c t)). apply Hq.
    + destruct f as [v|x|p a d]; try apply le_res_refl.
      change (le_res (gbind (generate k G a bv [ITailCall] t) (fun c' G => GOk (ILoadContinuation c :: c') G))
                     (gbind (generate (S k) G a bv [ITailCall] t) (fun c' G => GOk (ILoadContinuation c :: c') G))).
      apply le_res_bind; [apply Hg|intros; apply le_res_refl].
    + apply le_res_refl.
    + destruct bv as [|b bv]; [|apply le_res_refl]. destruct f as [v|x|p [v|x|p' a' d'] rest]; try apply le_res_refl.
      change (le_res (let '(i, G) := identify undefined G [] x in
                      match rest with FPair _ a _ => generate k G a [] (store i c) false
                                    | FAtom VNil => generate k G (FAtom unspecified) [] (store i c) false | _ => GUb end)
                     (let '(i, G) := identify undefined G [] x in
                      match rest with FPair _ a _ => generate (S k) G a [] (store i c) false
                                    | FAtom VNil => generate (S k) G (FAtom unspecified) [] (store i c) false | _ => GUb end)).
      destruct (identify undefined G [] x) as (i & G'). destruct rest as [[| |]| |]; try apply le_res_refl; apply Hg.
    + destruct f as [v|x|p a [v|x|p2 b rest]]; try apply le_res_refl.
      change (le_res (gbind (generate k G b bv (if t then c else [IJoin]) t) (fun c1 G =>
        gbind (match rest with
               | FPair _ x _ => generate k G x bv (if t then c else [IJoin]) t
               | FAtom VNil => GOk [ILoadConstant unspecified; if t then IReturn else IJoin] G
               | _ => GUb
               end) (fun c2 G =>
        generate k G a bv (if t then [ITailSelect c1 c2] else ISelect c1 c2 :: c) false)))
        (gbind (generate (S k) G b bv (if t then c else [IJoin]) t) (fun c1 G =>
        gbind (match rest with
               | FPair _ x _ => generate (S k) G x bv (if t then c else [IJoin]) t
               | FAtom VNil => GOk [ILoadConstant unspecified; if t then IReturn else IJoin] G
               | _ => GUb
               end) (fun c2 G =>
        generate (S k) G a bv (if t then [ITailSelect c1 c2] else ISelect c1 c2 :: c) false)))).
      apply le_res_bind; [apply Hg|]. intros c1 G1. apply le_res_bind; [|intros; apply Hg].
      destruct rest as [[| |]| |]; try apply le_res_refl; apply Hg.
    + destruct f as [v|x|p [[|z|q]|x|q a1 a2] [w|y|p2 b rest]]; try apply le_res_refl.
      change (le_res (generate k G b bv (IInstall (Z.to_nat z) :: c) false) (generate (S k) G b bv (IInstall (Z.to_nat z) :: c) false)). apply Hg.
    + change (le_res (lambda k G f bv c) (lambda (S k) G f bv c)). apply Hl.
    + destruct f as [v|x|p b bd]; try apply le_res_refl.
      change (le_res (match fmap fcar b, fmap fcadr b with
        | Some formals, Some inits =>
          gbind (lambda k G (FPair p formals bd) bv (if t then [ITailLetrec] else ILetrec :: c)) (fun c G =>
          gbind (operand k G inits (formals :: bv) c) (fun c G => GOk (IDummy :: c) G))
        | _, _ => GUb end)
        (match fmap fcar b, fmap fcadr b with
        | Some formals, Some inits =>
          gbind (lambda (S k) G (FPair p formals bd) bv (if t then [ITailLetrec] else ILetrec :: c)) (fun c G =>
          gbind (operand (S k) G inits (formals :: bv) c) (fun c G => GOk (IDummy :: c) G))
        | _, _ => GUb end)).
      destruct (fmap fcar b); [|apply le_res_refl]. destruct (fmap fcadr b); [|apply le_res_refl].
      apply le_res_bind; [apply Hl|]. intros. apply le_res_bind; [apply Ho|]. intros; apply le_res_refl.
    + apply le_res_refl.
    + destruct f as [v|x|p [v|x|q a1 a2] [w|y|p2 b rest]]; try apply le_res_refl.
      change (le_res (let '(i, G) := identify undefined G bv x in generate k G b bv (store i c) false)
                     (let '(i, G) := identify undefined G bv x in generate (S k) G b bv (store i c) false)).
      destruct (identify undefined G bv x). apply Hg.
  - intros G f bv c. destruct f as [v|x|p formals b]; try apply le_res_refl.
    change (le_res (gbind (body k G b (formals :: bv) [IReturn]) (fun c' G => GOk (ILoadClosure c' :: c) G))
                   (gbind (body (S k) G b (formals :: bv) [IReturn]) (fun c' G => GOk (ILoadClosure c' :: c) G))).
    apply le_res_bind; [apply Hb|]. intros; apply le_res_refl.
  - intros G f bv c. destruct f as [v|x|p a d].
    + change (le_res (generate k G (FAtom v) bv c false) (generate (S k) G (FAtom v) bv c false)). apply Hg.
    + change (le_res (generate k G (FId x) bv c false) (generate (S k) G (FId x) bv c false)). apply Hg.
    + change (le_res (gbind (generate k G a bv (ICons :: c) false) (fun c G => operand k G d bv c))
                     (gbind (generate (S k) G a bv (ICons :: c) false) (fun c G => operand (S k) G d bv c))).
      apply le_res_bind; [apply Hg|intros; apply Ho].
  - intros G f bv c. destruct f as [v|x|p a d]; try apply le_res_refl.
    change (le_res (if is_nil d then generate k G a bv c true else gbind (body k G d bv c) (fun c G => generate k G a bv (IDrop :: c) false))
                   (if is_nil d then generate (S k) G a bv c true else gbind (body (S k) G d bv c) (fun c G => generate (S k) G a bv (IDrop :: c) false))).
    destruct (is_nil d); [apply Hg|]. apply le_res_bind; [apply Hb|intros; apply Hg].
  - intros G f bv c t. destruct f as [v|x|p a d]; try apply le_res_refl.
    change (le_res (if is_nil d then generate k G a bv c t
                    else gbind (generate k G a bv [] false) (fun c1 G => gbind (sequence k G d bv c t) (fun c2 G => GOk (c1 ++ IDrop :: c2) G)))
                   (if is_nil d then generate (S k) G a bv c t
                    else gbind (generate (S k) G a bv [] false) (fun c1 G => gbind (sequence (S k) G d bv c t) (fun c2 G => GOk (c1 ++ IDrop :: c2) G)))).
    destruct (is_nil d); [apply Hg|]. apply le_res_bind; [apply Hg|]. intros. apply le_res_bind; [apply Hq|]. intros; apply le_res_refl.
Qed.
Lemma fuel_mono k k' G f bv c t : k <= k' -> generate k G f bv c t <> GFuel -> generate k' G f bv c t = generate k G f bv c t.
Proof.
  induction 1 as [|k' L IH]; intro H; [reflexivity|].
  destruct (proj1 (fuel_step k') G f bv c t) as [E|E]; [rewrite (IH H) in E; contradiction|]. rewrite <- E. apply IH. exact H.
Qed.
End Mono.

(** ** One form *)
Section Program.
Variable unspecified undefined : val.
Variable object : nat -> option nat.
Variable kw : nat -> option keyword.
Variable proc : nat -> heap -> val -> presult.
Variable prim : nat -> sstore -> list sval -> sval -> sstore -> Prop.
Hypothesis prim_sim : forall sc n s vs v s1 K h g lo hi xs,
  prim n s vs v s1 -> rel object kw sc K s h g -> arglist K h lo hi xs vs -> lo <= hi <= length h ->
  exists K' h' u, proc n h xs = PVal h' u /\ ext lo K h K' h' /\ rel object kw sc K' s1 h' g /\ vrel K' v u.

Lemma evaluate_correct f e s v s' G h K a : denotes unspecified kw [] f e -> eval object prim [] e s v s' ->
  rel object kw (scope G) K s h (cells G) ->
  exists N, forall fuel, N <= fuel -> exists G' h' K' u,
    evaluate unspecified undefined proc fuel G h a f = Some (u, G', h', a) /\
    rel object kw (scope G') K' s' h' (cells G') /\ kle K K' /\ vrel K' v u /\ scope_le (scope G) (scope G').
Proof.
  intros Hd He R.
  destruct (proj1 (generate_spec unspecified undefined kw) [] f e Hd [] WB_nil) as (N & HN).
  assert (W : wf_genv kw G) by (pose proof (r_genv _ _ _ _ _ _ _ _ R) as W; destruct G; exact W).
  destruct (HN N (le_n N) [IStop] false ltac:(discriminate) G W) as (G0 & c0 & E0 & X0 & W0 & S0).
  destruct (proj1 (eval_space object prim) [] e s v s' He false) as (n & Hn).
  (* the code does not depend on the fuel *)
  assert (Hrun : exists M G' h' K' u, run proc M (St [] VNil c0 [] h (cells G0) a) = Some (Halt u (St [u] VNil [IStop] [] h' (cells G') a)) /\
    scope G' = scope G0 /\ rel object kw (scope G') K' s' h' (cells G') /\ kle K K' /\ vrel K' v u).
  { destruct (proj1 (simulation object kw (scope G0) proc prim (prim_sim (scope G0))) false [] e s v s' n Hn
               [] [IStop] c0 K h (cells G0) a [] VNil [] n [] VNil [IStop] [] S0 (ER_nil K) (rel_gext _ _ _ _ _ _ _ _ R X0 W0) (T_next _ _ _ _) (le_n _))
      as (K1 & h1 & g1 & u & A1 & A2 & A3 & A4).
    destruct (steps_run _ _ _ _ 1 (Halt u (St [u] VNil [IStop] [] h1 g1 a)) A1 eq_refl) as (M & HM).
    exists M, (GEnv (scope G0) g1), h1, K1, u. split; [exact HM|]. split; [reflexivity|]. split; [exact A3|]. split; [apply A2|exact A4]. }
  destruct Hrun as (M & G' & h' & K' & u & HM & Hsc & R' & L' & V').
  exists (N + M). intros fuel Lf. exists G', h', K', u. split; [|split; [exact R'|split; [exact L'|split; [exact V'|rewrite Hsc; apply X0]]]].
  unfold evaluate, compile. rewrite (fuel_mono unspecified undefined N fuel G f [] [IStop] false ltac:(lia)) by (rewrite E0; discriminate).
  rewrite E0. unfold execute. rewrite (run_mono proc fuel M _ _ HM ltac:(lia)). cbn. rewrite <- Hsc. destruct G'. reflexivity.
Qed.

(** ** A program *)
Lemma program_correct fs es : Forall2 (denotes unspecified kw []) fs es -> forall s vs s' G h K a, evalp object prim es s vs s' ->
  rel object kw (scope G) K s h (cells G) ->
  exists N, forall fuel, N <= fuel -> exists G' h' K' us,
    evaluate_all unspecified undefined proc fuel G h a fs = Some (us, G', h') /\
    rel object kw (scope G') K' s' h' (cells G') /\ kle K K' /\ Forall2 (vrel K') vs us.
Proof.
  induction 1 as [|f e fs es Hd Hds IH]; intros s vs s' G h K a He R; inversion He; subst.
  - exists 0. intros fuel _. exists G, h, K, []. split; [reflexivity|]. split; [exact R|]. split; [apply kle_refl|constructor].
  - match goal with H : eval _ _ _ _ _ ?v ?s1, H' : evalp _ _ _ ?s1 ?vs _ |- _ => rename H into He1; rename H' into He2 end.
    destruct (evaluate_correct f e s v s1 G h K a Hd He1 R) as (N1 & H1).
    (* the state reached does not depend on the fuel *)
    destruct (H1 N1 (le_n _)) as (G1 & h1 & K1 & u & E1 & R1 & L1 & V1 & _).
    destruct (IH s1 vs0 s' G1 h1 K1 a He2 R1) as (N2 & H2).
    exists (N1 + N2). intros fuel Lf. destruct (H2 fuel ltac:(lia)) as (G2 & h2 & K2 & us & E2 & R2 & L2 & V2).
    exists G2, h2, K2, (u :: us). split; [|split; [exact R2|split; [eapply kle_trans; eauto|constructor; [|exact V2]]]].
    + cbn. assert (E : evaluate unspecified undefined proc fuel G h a f = Some (u, G1, h1, a)).
      { revert E1. unfold evaluate, compile. pose proof (fuel_mono unspecified undefined N1 fuel G f [] [IStop] false ltac:(lia)) as Hm.
        destruct (generate unspecified undefined N1 G f [] [IStop] false) as [c G0| | |] eqn:E0; try discriminate.
        rewrite Hm by discriminate. unfold execute. destruct (run proc N1 _) as [r|] eqn:Er; [|discriminate].
        rewrite (run_mono proc fuel N1 _ _ Er ltac:(lia)). auto. }
      rewrite E, E2. reflexivity.
    + eapply vrel_mono; [apply kle_wle; exact L2|exact V1].
Qed.
End Program.

(** ** What can be seen of a value *)
(** [same n]: the value v in the source-level store and the value u in the machine's heap agree to depth n *)
Fixpoint same (n : nat) (s : list scell) (v : sval) (h : heap) (u : val) : Prop :=
  match n with
  | O => True
  | S n =>
    match v, u with
    | SNil, VNil => True
    | SImm z, VImm z' => z = z'
    | SLoc l, VPtr p =>
      match nth_error s l, nth_error h p with
      | Some (CPair a d), Some (OPair x y) => same n s a h x /\ same n s d h y
      | Some (CClosure _ _ _ _), Some (OClosure _ _) => True
      | Some (CProcedure k), Some (OProcedure k') => k = k'
      | Some (COther k), Some (OOther k') => k = k'
      | _, _ => False
      end
    | _, _ => False
    end
  end.
Lemma rel_same object kw sc K s h g : rel object kw sc K s h g -> forall n v u, vrel K v u -> same n (locs s) v h u.
Proof.
  intros R. induction n as [|n IH]; intros v u V; [exact I|]. destruct V as [|z|l p Hp]; cbn; auto.
  pose proof (r_cells _ _ _ _ _ _ _ _ R p) as Hc. unfold cell_ok in Hc. rewrite Hp in Hc. destruct Hc as (c & o & H1 & H2 & H3).
  rewrite H1, H2. destruct H3; auto.
Qed.
Lemma rel_eq object kw sc K s h g v1 u1 v2 u2 : rel object kw sc K s h g -> vrel K v1 u1 -> vrel K v2 u2 -> (v1 = v2 <-> u1 = u2).
Proof.
  intros R [|z|l p Hp] [|z'|l' p' Hp']; split; intro E; try discriminate; try reflexivity; try congruence.
  injection E as <-. f_equal. eapply (r_objs _ _ _ _ _ _ _ _ R); eauto.
Qed.

(** ** The initial state: data and primitive procedures, no closure *)
Definition mirror (u : val) : sval := match u with VNil => SNil | VImm z => SImm z | VPtr p => SLoc p end.
Definition mirror_obj (o : obj) : option scell :=
  match o with
  | OPair x y => Some (CPair (mirror x) (mirror y))
  | OProcedure n => Some (CProcedure n)
  | OOther n => Some (COther n)
  | _ => None
  end.
Definition inside (h : heap) (u : val) : Prop := match u with VPtr p => p < length h | _ => True end.
Record initial (kw : nat -> option keyword) (G : genv) (h : heap) (s : sstore) : Prop := {
  in_genv : wf_genv kw G;
  in_heap : map Some (locs s) = map mirror_obj h;
  in_inside : forall p x y, nth_error h p = Some (OPair x y) -> inside h x /\ inside h y;
  in_globals : forall x v, globals s x = Some v -> exists n u, assq x (scope G) = Some n /\ nth_error (cells G) n = Some (GVal u) /\ inside h u /\ v = mirror u
}.
(** a literal of the program is an object of the initial heap *)
Definition literals (h : heap) (p : nat) : option nat := if Nat.ltb p (length h) then Some p else None.
Definition initial_world (h : heap) : world := fun p => if Nat.ltb p (length h) then KObj p else KFree.
Lemma mirror_rel h u : inside h u -> vrel (initial_world h) (mirror u) u.
Proof.
  destruct u as [|z|p]; cbn; intro H; constructor. unfold initial_world. destruct (Nat.ltb_spec p (length h)); [reflexivity|lia].
Qed.
Lemma initial_rel kw G h s : initial kw G h s -> rel (literals h) kw (scope G) (initial_world h) s h (cells G).
Proof.
  intros [W Hh Hi Hg].
  assert (Hk : forall p k, initial_world h p = k -> k = KFree \/ k = KObj p).
  { intros p k <-. unfold initial_world. destruct (Nat.ltb p (length h)); auto. }
  split.
  - intro p. unfold cell_ok. destruct (initial_world h p) as [|l|a d|ls e] eqn:E; [exact I| | |].
    + destruct (Hk p _ E) as [E'|E']; [discriminate|]. injection E' as ->.
      assert (Lp : p < length h) by (unfold initial_world in E; destruct (Nat.ltb_spec p (length h)); [assumption|discriminate]).
      destruct (nth_error h p) as [o|] eqn:Eo; [|apply nth_error_None in Eo; lia].
      assert (Em : nth_error (map Some (locs s)) p = Some (mirror_obj o)) by (rewrite Hh; apply map_nth_error; exact Eo).
      destruct (nth_error (locs s) p) as [c|] eqn:Ec.
      * rewrite (map_nth_error Some p (locs s) Ec) in Em. injection Em as Em. exists c, o. split; [reflexivity|]. split; [reflexivity|].
        destruct o; cbn in Em; try discriminate; injection Em as ->; constructor; apply mirror_rel; apply (Hi _ _ _ Eo).
      * exfalso. apply nth_error_None in Ec. assert (nth_error (map Some (locs s)) p = None) by (apply nth_error_None; rewrite map_length; exact Ec). congruence.
    + destruct (Hk p _ E) as [E'|E']; discriminate.
    + destruct (Hk p _ E) as [E'|E']; discriminate.
  - intros p q l H1 H2. destruct (Hk p _ H1) as [E|E]; [discriminate|]. destruct (Hk q _ H2) as [E'|E']; [discriminate|]. congruence.
  - intros l p q b c H1. exfalso. destruct b; destruct H1 as (z & H1); destruct (Hk p _ H1); discriminate.
  - intros p ls e l H. exfalso. destruct (Hk p _ H); discriminate.
  - intros p q ls ls' e e' l H. exfalso. destruct (Hk p _ H); discriminate.
  - intros p l H. unfold literals in H. unfold initial_world. destruct (Nat.ltb p (length h)); [congruence|discriminate].
  - intros x v H. destruct (Hg x v H) as (n & u & H1 & H2 & H3 & ->). exists n, u. auto using mirror_rel.
  - destruct G. exact W.
Qed.

(** ** The primitive procedures of Evaluate.v (R7RS 6.1, 6.4, 6.10) *)
Definition bool_value (b : bool) : sval := SImm (if b then 1 else 0).
Definition is_pair (s : sstore) (v : sval) : Prop := exists l a d, v = SLoc l /\ nth_error (locs s) l = Some (CPair a d).
Definition is_procedure (s : sstore) (v : sval) : Prop :=
  exists l, v = SLoc l /\ ((exists n, nth_error (locs s) l = Some (CProcedure n)) \/ (exists xs r b e, nth_error (locs s) l = Some (CClosure xs r b e))).
Inductive standard : nat -> sstore -> list sval -> sval -> sstore -> Prop :=
| Std_cons s x y : standard 0 s [x; y] (SLoc (length (locs s))) (add s (CPair x y))
| Std_car s l a d : nth_error (locs s) l = Some (CPair a d) -> standard 1 s [SLoc l] a s
| Std_cdr s l a d : nth_error (locs s) l = Some (CPair a d) -> standard 2 s [SLoc l] d s
| Std_set_car s l a d x : nth_error (locs s) l = Some (CPair a d) -> standard 3 s [SLoc l; x] x (write s l (CPair x d))
| Std_set_cdr s l a d x : nth_error (locs s) l = Some (CPair a d) -> standard 4 s [SLoc l; x] x (write s l (CPair a x))
| Std_eq s x y b : (b = true <-> x = y) -> standard 5 s [x; y] (bool_value b) s
| Std_pair s x b : (b = true <-> is_pair s x) -> standard 6 s [x] (bool_value b) s
| Std_null s x b : (b = true <-> x = SNil) -> standard 7 s [x] (bool_value b) s
| Std_list s vs v s1 : alloc_list vs s = (v, s1) -> standard 8 s vs v s1
| Std_procedure s x b : (b = true <-> is_procedure s x) -> standard 9 s [x] (bool_value b) s.

Section Primitives.
Variable object : nat -> option nat.
Variable kw : nat -> option keyword.
Variable sc : list (nat * nat).
Notation rel := (rel object kw sc).
Lemma rel_write_obj K s h g p l c0 c o : rel K s h g -> K p = KObj l -> nth_error (locs s) l = Some c0 -> objrel kw sc K c o ->
  rel K (write s l c) (update h p o) g.
Proof.
  intros R Hp Hl Ho. pose proof (nth_lt _ _ _ Hl) as Ll.
  pose proof (r_cells _ _ _ _ _ _ _ _ R p) as Hc. unfold cell_ok in Hc. rewrite Hp in Hc. destruct Hc as (c1 & o1 & H1 & H2 & H3).
  pose proof (nth_lt _ _ _ H2) as Lp. assert (Hv : forall z, c0 <> CVar z) by (intros z ->; rewrite Hl in H1; injection H1 as <-; inversion H3).
  assert (Hw : forall l' z, nth_error (locs s) l' = Some (CVar z) -> nth_error (locs (write s l c)) l' = Some (CVar z)).
  { intros l' z H. cbn. rewrite nth_update_neq; [exact H|]. intros ->. rewrite Hl in H. injection H as ->. eapply Hv; reflexivity. }
  assert (Hf : forall f z, frel K s f z -> frel K (write s l c) f z).
  { intros [y'|l'] z; cbn [frel]; [auto|]. intros (v' & Hv' & Hz). exists v'. split; [|exact Hz]. apply Hw. exact Hv'. }
  split; try apply R.
  - intro q. pose proof (r_cells _ _ _ _ _ _ _ _ R q) as Hc. unfold cell_ok in *. destruct (Nat.eq_dec q p) as [->|Nq].
    + rewrite Hp. exists c, o. cbn. rewrite !nth_update_eq by assumption. auto.
    + rewrite nth_update_neq by congruence. destruct (K q) as [|l'|a d|ls e] eqn:Eq; [exact I| | |exact Hc].
      * destruct Hc as (c' & o' & E1 & E2 & E3). exists c', o'. split; [|auto]. cbn. rewrite nth_update_neq; [exact E1|].
        intros ->. apply Nq. eapply (r_objs _ _ _ _ _ _ _ _ R); eauto.
      * destruct Hc as (x' & y' & E1 & E2 & E3). exists x', y'. auto.
  - intros q ls e l' E1 E2 E3. apply Hw. eapply (r_pend _ _ _ _ _ _ _ _ R); eauto.
Qed.
Lemma arg_head K h lo hi xs vs : arglist K h lo hi xs vs -> forall i v, nth_error vs i = Some v -> exists u, head h xs i = Some u /\ vrel K v u.
Proof.
  unfold head. induction 1 as [hi|hi p u xs v vs Hlt Hp Hk Hh Hv Ha IH]; intros i w E; [destruct i; discriminate|].
  destruct i as [|i]; cbn in E.
  - injection E as <-. exists u. cbn. rewrite Hh. auto.
  - destruct (IH i w E) as (u' & H1 & H2). exists u'. cbn. rewrite Hh. auto.
Qed.
Lemma val_eqb_eq x y : val_eqb x y = true <-> x = y.
Proof.
  destruct x as [|z|p], y as [|z'|p']; cbn; split; intro E; try discriminate; try reflexivity.
  - apply Z.eqb_eq in E. congruence.
  - injection E as ->. apply Z.eqb_refl.
  - apply Nat.eqb_eq in E. congruence.
  - injection E as ->. apply Nat.eqb_refl.
Qed.
Lemma bool_rel K b b' : (b = true <-> b' = true) -> vrel K (bool_value b) (make_bool b').
Proof. intros H. assert (b = b') as -> by (destruct b, b'; intuition congruence). destruct b'; constructor. Qed.
Lemma standard_sim n s vs v s1 K h g lo hi xs : standard n s vs v s1 -> rel K s h g -> arglist K h lo hi xs vs -> lo <= hi <= length h ->
  exists K' h' u, primitive n h xs = PVal h' u /\ ext lo K h K' h' /\ rel K' s1 h' g /\ vrel K' v u.
Proof.
  intros P R Ha L.
  assert (Hobj : forall l p c, K p = KObj l -> nth_error (locs s) l = Some c -> exists o, nth_error h p = Some o /\ objrel kw sc K c o).
  { intros l p c Hp Hl. pose proof (r_cells _ _ _ _ _ _ _ _ R p) as Hc. unfold cell_ok in Hc. rewrite Hp in Hc.
    destruct Hc as (c1 & o1 & H1 & H2 & H3). rewrite Hl in H1. injection H1 as <-. eauto. }
  pose proof (arg_head _ _ _ _ _ _ Ha) as Harg.
  destruct P as [s x y|s l a d Hl|s l a d Hl|s l a d x Hl|s l a d x Hl|s x y b Hb|s x b Hb|s x b Hb|s vs v s1 Hal|s x b Hb].
  - destruct (Harg 0 x eq_refl) as (u & U1 & U2), (Harg 1 y eq_refl) as (w & W1 & W2).
    assert (Hfree : K (length h) = KFree) by (eapply rel_free; eauto).
    exists (Kset K (length h) (KObj (length (locs s)))), (h ++ [OPair u w]), (VPtr (length h)).
    unfold primitive. rewrite U1, W1. split; [reflexivity|]. split; [|split].
    + apply (ext_trans lo lo _ _ K (h ++ [OPair u w])); [apply ext_alloc|apply ext_set; [exact Hfree|lia]|apply le_n].
    + eapply rel_add_obj with (c := CPair x y) (o := OPair u w); [apply rel_add, rel_alloc; exact R|exact Hfree|apply nth_snoc|apply nth_snoc|constructor; assumption|].
      intros q. eapply obj_fresh; [exact R|lia].
    + constructor. apply Kset_eq.
  - destruct (Harg 0 _ eq_refl) as (u & U1 & U2). inversion U2 as [| |l' p Hp]; subst.
    destruct (Hobj l p _ Hp Hl) as (o & Ho & Hr). inversion Hr; subst.
    exists K, h, x. unfold primitive. rewrite U1. cbn. rewrite Ho. auto using ext_refl.
  - destruct (Harg 0 _ eq_refl) as (u & U1 & U2). inversion U2 as [| |l' p Hp]; subst.
    destruct (Hobj l p _ Hp Hl) as (o & Ho & Hr). inversion Hr; subst.
    exists K, h, y. unfold primitive. rewrite U1. cbn. rewrite Ho. auto using ext_refl.
  - destruct (Harg 0 _ eq_refl) as (u & U1 & U2), (Harg 1 _ eq_refl) as (w & W1 & W2). inversion U2 as [| |l' p Hp]; subst.
    destruct (Hobj l p _ Hp Hl) as (o & Ho & Hr). inversion Hr as [a' d' x' y' Hx Hy| | |]; subst.
    exists K, (update h p (OPair w y')), w. unfold primitive. rewrite U1, W1. cbn. rewrite Ho.
    split; [reflexivity|]. split; [apply ext_update; congruence|]. split; [|exact W2]. eapply rel_write_obj; eauto. constructor; assumption.
  - destruct (Harg 0 _ eq_refl) as (u & U1 & U2), (Harg 1 _ eq_refl) as (w & W1 & W2). inversion U2 as [| |l' p Hp]; subst.
    destruct (Hobj l p _ Hp Hl) as (o & Ho & Hr). inversion Hr as [a' d' x' y' Hx Hy| | |]; subst.
    exists K, (update h p (OPair x' w)), w. unfold primitive. rewrite U1, W1. cbn. rewrite Ho.
    split; [reflexivity|]. split; [apply ext_update; congruence|]. split; [|exact W2]. eapply rel_write_obj; eauto. constructor; assumption.
  - destruct (Harg 0 _ eq_refl) as (u & U1 & U2), (Harg 1 _ eq_refl) as (w & W1 & W2).
    eexists K, h, _. unfold primitive. rewrite U1, W1. split; [reflexivity|]. split; [apply ext_refl|]. split; [exact R|].
    apply bool_rel. rewrite Hb, val_eqb_eq. eapply rel_eq; eauto.
  - destruct (Harg 0 _ eq_refl) as (u & U1 & U2).
    eexists K, h, _. unfold primitive. rewrite U1. split; [reflexivity|]. split; [apply ext_refl|]. split; [exact R|].
    apply bool_rel. rewrite Hb. unfold is_pair. destruct U2 as [|z|l p Hp]; cbn.
    + split; [intros (l & a & d & E & _); discriminate|discriminate].
    + split; [intros (l & a & d & E & _); discriminate|discriminate].
    + split.
      * intros (l' & a & d & E & Hl). injection E as <-. destruct (Hobj l p _ Hp Hl) as (o & Ho & Hr). inversion Hr; subst. rewrite Ho. reflexivity.
      * pose proof (r_cells _ _ _ _ _ _ _ _ R p) as Hc. unfold cell_ok in Hc. rewrite Hp in Hc. destruct Hc as (c1 & o1 & H1 & H2 & H3).
        rewrite H2. destruct H3; try discriminate. intros _. eauto.
  - destruct (Harg 0 _ eq_refl) as (u & U1 & U2).
    eexists K, h, _. unfold primitive. rewrite U1. split; [reflexivity|]. split; [apply ext_refl|]. split; [exact R|].
    apply bool_rel. rewrite Hb, val_eqb_eq. destruct U2; split; intro E; congruence.
  - destruct (list_objects _ _ _ K s h g lo hi xs vs v s1 R Ha Hal) as (K' & R' & T' & V').
    exists K', h, xs. split; [reflexivity|]. split; [eapply ext_touched; exact T'|]. auto.
  - destruct (Harg 0 _ eq_refl) as (u & U1 & U2).
    eexists K, h, _. unfold primitive. rewrite U1. split; [reflexivity|]. split; [apply ext_refl|]. split; [exact R|].
    apply bool_rel. rewrite Hb. unfold is_procedure. destruct U2 as [|z|l p Hp]; cbn.
    + split; [intros (l & E & _); discriminate|discriminate].
    + split; [intros (l & E & _); discriminate|discriminate].
    + pose proof (r_cells _ _ _ _ _ _ _ _ R p) as Hc. unfold cell_ok in Hc. rewrite Hp in Hc. destruct Hc as (c1 & o1 & H1 & H2 & H3).
      rewrite H2. split.
      * intros (l' & E & [(n & Hn)|(a1 & a2 & a3 & a4 & Hn)]); injection E as <-; rewrite Hn in H1; injection H1 as <-; inversion H3; reflexivity.
      * intro E. destruct H3; try discriminate; exists l; (split; [reflexivity|]); [right|left]; eauto 6.
Qed.
End Primitives.

(** ** The whole: programs over the primitives of Evaluate.v *)
Theorem compiler_correct unspecified undefined kw fs es G h s vs s' a :
  initial kw G h s -> Forall2 (denotes unspecified kw []) fs es -> evalp (literals h) standard es s vs s' ->
  exists N, forall fuel, N <= fuel -> exists us G' h',
    evaluate_all unspecified undefined primitive fuel G h a fs = Some (us, G', h') /\
    (forall n, Forall2 (fun v u => same n (locs s') v h' u) vs us) /\
    (forall i j v1 v2 u1 u2, nth_error vs i = Some v1 -> nth_error vs j = Some v2 -> nth_error us i = Some u1 -> nth_error us j = Some u2 -> (v1 = v2 <-> u1 = u2)) /\
    (forall x v, globals s' x = Some v -> exists n u, assq x (scope G') = Some n /\ nth_error (cells G') n = Some (GVal u) /\ forall k, same k (locs s') v h' u).
Proof.
  intros Hi Hd He. pose proof (initial_rel kw G h s Hi) as R.
  destruct (program_correct unspecified undefined (literals h) kw primitive standard
              (fun sc n s vs v s1 K h0 g lo hi xs => standard_sim (literals h) kw sc n s vs v s1 K h0 g lo hi xs) fs es Hd s vs s' G h _ a He R) as (N & HN).
  exists N. intros fuel Lf. destruct (HN fuel Lf) as (G' & h' & K' & us & E & R' & _ & V). exists us, G', h'. split; [exact E|]. split; [|split].
  - intro n. assert (Hs : forall v u, vrel K' v u -> same n (locs s') v h' u) by (intros; eapply rel_same; eauto).
    clear -V Hs. induction V; constructor; auto.
  - intros i j v1 v2 u1 u2 A1 A2 B1 B2.
    assert (Hn : forall i v u, nth_error vs i = Some v -> nth_error us i = Some u -> vrel K' v u).
    { clear -V. induction V as [|v u vs us H V IH]; intros [|i] v' u' A B; try discriminate; cbn in *; [congruence|eauto]. }
    eapply rel_eq; eauto.
  - intros x v H. destruct (r_globals _ _ _ _ _ _ _ _ R' x v H) as (n & u & H1 & H2 & H3). exists n, u. eauto using rel_same.
Qed.
