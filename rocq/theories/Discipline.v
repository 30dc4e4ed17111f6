(** Stack discipline: generated code is well-formed with respect to the depth of the value stack and the
    shape of the dump, and running it preserves this. *)
From Coq Require Import ZArith List Bool Lia.
From Verif Require Import Machine Generator Evaluate Simulation.
Import ListNotations.

(** ** What an instruction needs (a specification, read off instruction.hpp) *)
(** how many values an instruction takes from the stack *)
Definition operands (i : instr) : nat :=
  match i with
  | ISelect _ _ | ITailSelect _ _ | IReturn | IDrop | IStoreAbsolute _ | IStoreRelative _ _ | IStoreVariadic _ _ | IInstall _ | IStop => 1
  | ICall | ITailCall | ILetrec | ITailLetrec | ICons => 2
  | _ => 0
  end.
(** what it takes from the dump *)
Definition returns (i : instr) : bool := match i with IReturn | ITailCall => true | _ => false end.
Definition joins (i : instr) : bool := match i with IJoin => true | _ => false end.
Definition frame_on (d : dump) : Prop := exists s e c d', d = DS s :: DE e :: DC c :: d'.
(** the state is one in which the next instruction finds what it needs *)
Definition supplied (st : state) : Prop :=
  exists i c, st_c st = i :: c /\ operands i <= length (st_s st) /\
    (returns i = true -> frame_on (st_d st)) /\ (joins i = true -> exists c' d', st_d st = DC c' :: d').

(** ** Well-formed code *)
(** how code ends: with stop, by returning to a caller, by joining at a given depth *)
Inductive kont := Stops | Returns | Joins (n : nat).
Inductive code_ok : nat -> kont -> code -> Prop :=
| OK_load_absolute n k g c : code_ok (S n) k c -> code_ok n k (ILoadAbsolute g :: c)
| OK_load_relative n k i j c : code_ok (S n) k c -> code_ok n k (ILoadRelative i j :: c)
| OK_load_variadic n k i j c : code_ok (S n) k c -> code_ok n k (ILoadVariadic i j :: c)
| OK_load_constant n k v c : code_ok (S n) k c -> code_ok n k (ILoadConstant v :: c)
| OK_load_closure n k c' c : code_ok 0 Returns c' -> code_ok (S n) k c -> code_ok n k (ILoadClosure c' :: c)
| OK_load_continuation n k c' c : code_ok (S n) k c' -> code_ok (S n) k c -> code_ok n k (ILoadContinuation c' :: c)
| OK_current n k i c : code_ok (S n) k c -> code_ok n k (ICurrent i :: c)
| OK_select n k c1 c2 c : code_ok n (Joins (S n)) c1 -> code_ok n (Joins (S n)) c2 -> code_ok (S n) k c -> code_ok (S n) k (ISelect c1 c2 :: c)
| OK_tail_select n k c1 c2 c : code_ok n k c1 -> code_ok n k c2 -> code_ok (S n) k (ITailSelect c1 c2 :: c)
| OK_join n c : code_ok n (Joins n) (IJoin :: c)
| OK_call n k c : code_ok (S n) k c -> code_ok (S (S n)) k (ICall :: c)
| OK_tail_call n c : code_ok (S (S n)) Returns (ITailCall :: c)
| OK_dummy n k c : code_ok n k c -> code_ok n k (IDummy :: c)
| OK_letrec n k c : code_ok (S n) k c -> code_ok (S (S n)) k (ILetrec :: c)
| OK_tail_letrec n c : code_ok (S (S n)) Returns (ITailLetrec :: c)
| OK_return n c : code_ok (S n) Returns (IReturn :: c)
| OK_cons n k c : code_ok (S n) k c -> code_ok (S (S n)) k (ICons :: c)
| OK_drop n k c : code_ok n k c -> code_ok (S n) k (IDrop :: c)
| OK_store_absolute n k g c : code_ok (S n) k c -> code_ok (S n) k (IStoreAbsolute g :: c)
| OK_store_relative n k i j c : code_ok (S n) k c -> code_ok (S n) k (IStoreRelative i j :: c)
| OK_store_variadic n k i j c : code_ok (S n) k c -> code_ok (S n) k (IStoreVariadic i j :: c)
| OK_install n k i c : code_ok (S n) k c -> code_ok (S n) k (IInstall i :: c)
| OK_stop n c : code_ok (S n) Stops (IStop :: c).
(** the dump that such an ending needs *)
Inductive dump_ok : kont -> dump -> Prop :=
| DK_stop d : dump_ok Stops d
| DK_return k s e c d : code_ok (S (length s)) k c -> dump_ok k d -> dump_ok Returns (DS s :: DE e :: DC c :: d)
| DK_join n k c d : code_ok n k c -> dump_ok k d -> dump_ok (Joins n) (DC c :: d).
Definition obj_ok (o : obj) : Prop :=
  match o with
  | OClosure c _ => code_ok 0 Returns c
  | OContinuation s _ c d => exists k, code_ok (S (length s)) k c /\ dump_ok k d
  | _ => True
  end.
Definition heap_ok (h : heap) : Prop := forall p o, nth_error h p = Some o -> obj_ok o.
Definition state_ok (st : state) : Prop :=
  heap_ok (st_h st) /\ exists k, code_ok (length (st_s st)) k (st_c st) /\ dump_ok k (st_d st).

Lemma heap_ok_alloc h o : heap_ok h -> obj_ok o -> heap_ok (h ++ [o]).
Proof.
  intros H Ho p o' E. destruct (Nat.lt_ge_cases p (length h)) as [L|L].
  - rewrite nth_error_app1 in E by exact L. eapply H; eauto.
  - rewrite nth_error_app2 in E by exact L. destruct (p - length h) as [|n]; cbn in E; [congruence|destruct n; discriminate].
Qed.
Lemma heap_ok_update h p o : heap_ok h -> obj_ok o -> heap_ok (update h p o).
Proof.
  intros H Ho q o' E. destruct (Nat.eq_dec p q) as [->|N].
  - destruct (Nat.lt_ge_cases q (length h)) as [L|L]; [rewrite nth_update_eq in E by exact L; congruence|].
    assert (nth_error (update h q o) q = None) by (apply nth_error_None; rewrite length_update; exact L). congruence.
  - rewrite nth_update_neq in E by exact N. eapply H; eauto.
Qed.
Lemma heap_ok_set_car h x v h' : heap_ok h -> set_car h x v = Some h' -> heap_ok h'.
Proof.
  intros H E. destruct x as [| |p]; try discriminate. cbn in E. destruct (nth_error h p) as [[| | | |]|]; try discriminate.
  injection E as <-. apply heap_ok_update; [exact H|exact I].
Qed.
Lemma heap_ok_set_cdr h x v h' : heap_ok h -> set_cdr h x v = Some h' -> heap_ok h'.
Proof.
  intros H E. destruct x as [| |p]; try discriminate. cbn in E. destruct (nth_error h p) as [[| | | |]|]; try discriminate.
  injection E as <-. apply heap_ok_update; [exact H|exact I].
Qed.
Lemma heap_ok_store_relative h e i j v h' : heap_ok h -> store_relative h e i j v = Some h' -> heap_ok h'.
Proof.
  unfold store_relative, obind. intros H E. destruct (head h e i); [|discriminate]. destruct (tail h v0 j); [|discriminate].
  eapply heap_ok_set_car; eauto.
Qed.
Lemma heap_ok_store_variadic h e i j v h' : heap_ok h -> store_variadic h e i j v = Some h' -> heap_ok h'.
Proof.
  unfold store_variadic, obind. intros H E. destruct j as [|j].
  - destruct (tail h e i); [|discriminate]. eapply heap_ok_set_car; eauto.
  - destruct (head h e i); [|discriminate]. destruct (tail h v0 j); [|discriminate]. eapply heap_ok_set_cdr; eauto.
Qed.
Lemma callee_ok h x o : heap_ok h -> callee h x = Some o -> obj_ok o.
Proof. intros H E. destruct x; try discriminate. eapply H; eauto. Qed.

Lemma ok_supplied st : state_ok st -> supplied st.
Proof.
  intros (_ & k & Hc & Hd). destruct st as [s e c d h g a]. cbn in *. unfold supplied. cbn [st_s st_c st_d].
  inversion Hc; subst; eexists _, _; (split; [reflexivity|]); cbn [operands returns joins];
    (split; [lia|]); split; intro; try discriminate; inversion Hd; subst; unfold frame_on; eauto 6.
Qed.

Section Preservation.
Variable proc : nat -> heap -> val -> presult.
Hypothesis proc_ok : forall n h xs h' v, proc n h xs = PVal h' v -> heap_ok h -> heap_ok h'.
Lemma step_ok st st' : state_ok st -> step proc st = Next st' -> state_ok st'.
Proof.
  intros (Hh & k & Hc & Hd) E. destruct st as [s e c d h g a]. cbn in Hh, Hc, Hd. unfold step in E.
  Ltac fin k := split; cbn [st_h st_s st_c st_d length]; [assumption|exists k; split; assumption].
  destruct c as [|i c]; [discriminate|]. destruct i.
  - inversion Hc; subst. destruct (nth_error g g0) as [[|]|]; try discriminate. injection E as <-. fin k.
  - inversion Hc; subst. destruct (obind _ _); try discriminate. injection E as <-. fin k.
  - inversion Hc; subst. destruct (obind _ _); try discriminate. injection E as <-. fin k.
  - inversion Hc; subst. injection E as <-. fin k.
  - inversion Hc; subst. cbn in E. injection E as <-. split; [apply heap_ok_alloc; assumption|exists k; split; assumption].
  - inversion Hc; subst. cbn in E. injection E as <-.
    split; [apply heap_ok_alloc; [apply heap_ok_alloc; [assumption|cbn; eauto]|exact I]|exists k; split; assumption].
  - inversion Hc; subst. destruct (nth_error a i); try discriminate. injection E as <-. fin k.
  - destruct s as [|x s]; [inversion Hc|]. inversion Hc; subst. injection E as <-.
    split; [assumption|]. exists (Joins (S (length s))). cbn. split; [destruct (val_eqb x f_); assumption|econstructor; eauto].
  - destruct s as [|x s]; [inversion Hc|]. inversion Hc; subst. injection E as <-.
    split; [assumption|]. exists k. cbn. split; [destruct (val_eqb x f_); assumption|assumption].
  - inversion Hc; subst. inversion Hd; subst. injection E as <-. split; [assumption|]. eauto.
  - destruct s as [|x [|xs s]]; [inversion Hc|inversion Hc|]. inversion Hc; subst. cbn in *.
    destruct (callee h x) as [o|] eqn:Eo; [|discriminate]. pose proof (callee_ok _ _ _ Hh Eo) as Ho.
    destruct o as [|c' e'|s' e' c' d'|n|]; try discriminate.
    + injection E as <-. split; [apply heap_ok_alloc; [assumption|exact I]|]. exists Returns. cbn. split; [exact Ho|econstructor; eauto].
    + destruct (car h xs); [|discriminate]. injection E as <-. split; [assumption|]. exact Ho.
    + destruct (proc n h xs) eqn:Ep; [|discriminate]. injection E as <-. split; [eapply proc_ok; eauto|]. exists k. auto.
  - destruct s as [|x [|xs s]]; [inversion Hc|inversion Hc|]. inversion Hc; subst. cbn in *.
    destruct (callee h x) as [o|] eqn:Eo; [|discriminate]. pose proof (callee_ok _ _ _ Hh Eo) as Ho.
    destruct o as [|c' e'|s' e' c' d'|n|]; try discriminate.
    + injection E as <-. split; [apply heap_ok_alloc; [assumption|exact I]|]. exists Returns. cbn. split; [exact Ho|assumption].
    + destruct (car h xs); [|discriminate]. injection E as <-. split; [assumption|]. exact Ho.
    + destruct (proc n h xs) eqn:Ep; [|discriminate]. inversion Hd; subst. injection E as <-.
      split; [eapply proc_ok; eauto|]. cbn. eauto.
  - inversion Hc; subst. cbn in E. injection E as <-. split; [apply heap_ok_alloc; [assumption|exact I]|exists k; auto].
  - destruct s as [|x [|xs s]]; [inversion Hc|inversion Hc|]. inversion Hc; subst. cbn in *.
    destruct (callee h x) as [o|] eqn:Eo; [|discriminate]. pose proof (callee_ok _ _ _ Hh Eo) as Ho.
    destruct o as [|c' e'|s' e' c' d'|n|]; try discriminate.
    destruct (set_car h e' xs) as [h'|] eqn:Es; [|discriminate]. destruct (cdr h e); [|discriminate]. injection E as <-.
    split; [eapply heap_ok_set_car; eauto|]. exists Returns. cbn. split; [exact Ho|econstructor; eauto].
  - destruct s as [|x [|xs s]]; [inversion Hc|inversion Hc|]. inversion Hc; subst. cbn in *.
    destruct (callee h x) as [o|] eqn:Eo; [|discriminate]. pose proof (callee_ok _ _ _ Hh Eo) as Ho.
    destruct o as [|c' e'|s' e' c' d'|n|]; try discriminate.
    destruct (set_car h e' xs) as [h'|] eqn:Es; [|discriminate]. injection E as <-.
    split; [eapply heap_ok_set_car; eauto|]. exists Returns. cbn. split; [exact Ho|assumption].
  - destruct s as [|x s]; [inversion Hc|]. inversion Hc; subst. inversion Hd; subst. injection E as <-. split; [assumption|]. cbn. eauto.
  - destruct s as [|x [|y s]]; [inversion Hc|inversion Hc|]. inversion Hc; subst. cbn in E. injection E as <-.
    split; [apply heap_ok_alloc; [assumption|exact I]|exists k; auto].
  - destruct s as [|x s]; [inversion Hc|]. inversion Hc; subst. injection E as <-. fin k.
  - destruct s as [|x s]; [inversion Hc|]. inversion Hc; subst. destruct (Nat.ltb g0 (length g)); [|discriminate]. injection E as <-. fin k.
  - destruct s as [|x s]; [inversion Hc|]. inversion Hc; subst. destruct (store_relative h e i j x) eqn:Es; [|discriminate].
    injection E as <-. split; [eapply heap_ok_store_relative; eauto|exists k; auto].
  - destruct s as [|x s]; [inversion Hc|]. inversion Hc; subst. destruct (store_variadic h e i j x) eqn:Es; [|discriminate].
    injection E as <-. split; [eapply heap_ok_store_variadic; eauto|exists k; auto].
  - destruct s as [|x s]; [inversion Hc|]. inversion Hc; subst. destruct (Nat.ltb i (length a)); [|discriminate]. injection E as <-. fin k.
  - destruct s; discriminate.
Qed.

(** runs of any length *)
Inductive reach : state -> state -> Prop :=
| R_here st : reach st st
| R_next st st1 st2 : step proc st = Next st1 -> reach st1 st2 -> reach st st2.
Lemma reach_ok st st' : reach st st' -> state_ok st -> state_ok st'.
Proof. induction 1; intro H'; [exact H'|]. apply IHreach. eapply step_ok; eauto. Qed.
Lemma reach_supplied st st' : reach st st' -> state_ok st -> supplied st'.
Proof. intros H Hs. apply ok_supplied. eapply reach_ok; eauto. Qed.

(** ** Returning *)
Definition extends (D d : dump) : Prop := exists d1, d = d1 ++ D.
(** the instruction invokes a continuation *)
Definition jumps (st : state) : Prop :=
  exists c x xs s s' e' c' d', (st_c st = ICall :: c \/ st_c st = ITailCall :: c) /\ st_s st = x :: xs :: s /\ callee (st_h st) x = Some (OContinuation s' e' c' d').
Lemma extends_cons D d x : extends D d -> extends D (x :: d).
Proof. intros (d1 & ->). exists (x :: d1). reflexivity. Qed.
Lemma pop3 s e c d s' e' c' d' d1 : DS s' :: DE e' :: DC c' :: d' = d1 ++ DS s :: DE e :: DC c :: d ->
  (s' = s /\ e' = e /\ c' = c /\ d' = d) \/ extends (DS s :: DE e :: DC c :: d) d'.
Proof.
  intro E. destruct d1 as [|a1 [|a2 [|a3 d1]]]; cbn in E; try discriminate; injection E; intros; subst; [left; auto|].
  right. exists d1. reflexivity.
Qed.
Lemma pop1 s e c d c' d' d1 : DC c' :: d' = d1 ++ DS s :: DE e :: DC c :: d -> extends (DS s :: DE e :: DC c :: d) d'.
Proof. intro E. destruct d1 as [|a1 d1]; cbn in E; [discriminate|]. injection E; intros; subst. exists d1. reflexivity. Qed.
Lemma step_returns s e c d st st' : step proc st = Next st' -> ~ jumps st -> extends (DS s :: DE e :: DC c :: d) (st_d st) ->
  extends (DS s :: DE e :: DC c :: d) (st_d st') \/ exists v h' g' a', st' = St (v :: s) e c d h' g' a'.
Proof.
  intros E J X. destruct st as [s0 e0 c0 d0 h g a]. cbn [st_d] in X. unfold step in E.
  assert (Hj : forall x xs s1 s' e' c' d' c1, (c0 = ICall :: c1 \/ c0 = ITailCall :: c1) -> s0 = x :: xs :: s1 -> callee h x = Some (OContinuation s' e' c' d') -> False).
  { intros x xs s1 s' e' c' d' c1 H1 H2 H3. apply J. exists c1, x, xs, s1, s', e', c', d'. auto. }
  clear J. destruct c0 as [|i c0]; [discriminate|]. destruct i; cbn in E.
  all: repeat match type of E with
       | match ?t with _ => _ end = Next _ => let Q := fresh "Q" in destruct t eqn:Q; subst; try discriminate
       end.
  all: try (exfalso; eapply Hj; eauto; fail).
  all: try (injection E as <-; cbn [st_d]; left; repeat apply extends_cons; exact X).
  all: injection E as <-; cbn [st_d]; destruct X as (d1 & X).
  all: try (left; eapply pop1; exact X).
  all: destruct (pop3 _ _ _ _ _ _ _ _ _ X) as [(-> & -> & -> & ->)|H]; [right; eauto|left; exact H].
Qed.
(** a run that does not invoke a continuation *)
Inductive straight : state -> state -> Prop :=
| Z_here st : straight st st
| Z_next st st1 st2 : ~ jumps st -> step proc st = Next st1 -> straight st1 st2 -> straight st st2.
Lemma straight_returns s e c d st st' : straight st st' -> extends (DS s :: DE e :: DC c :: d) (st_d st) ->
  extends (DS s :: DE e :: DC c :: d) (st_d st') \/
  exists v h' g' a', straight st (St (v :: s) e c d h' g' a') /\ straight (St (v :: s) e c d h' g' a') st'.
Proof.
  induction 1 as [|st st1 st2 J Hs H IH]; intro X; [left; exact X|].
  destruct (step_returns s e c d st st1 Hs J X) as [X1|(v & h' & g' & a' & ->)].
  - destruct (IH X1) as [X2|(v & h' & g' & a' & A & B)]; [left; exact X2|]. right. exists v, h', g', a'. split; [eapply Z_next; eauto|exact B].
  - right. exists v, h', g', a'. split; [eapply Z_next; eauto; constructor|exact H].
Qed.
End Preservation.

(** ** Generated code is well-formed *)
Section Generated.
Variable unspecified undefined : val.
(** call-with-current-continuation! is not bound (the standard procedure is) *)
Definition plain (G : genv) : Prop := forall n, nth_error (cells G) n <> Some (GSyntax KCallCC).
Lemma syntax_of_plain G bv a k : plain G -> syntax_of G bv a = Some k -> k <> KCallCC.
Proof.
  unfold syntax_of. intros P E. destruct a as [|x|]; try discriminate. destruct (identify_const G bv x); try discriminate.
  destruct (nth_error (cells G) g) as [[k'|]|] eqn:En; try discriminate. injection E as <-. intros ->. eapply P; eauto.
Qed.
Lemma identify_plain G bv x i G' : identify undefined G bv x = (i, G') -> plain G -> plain G'.
Proof.
  unfold identify. intros E P. destruct (identify_const G bv x); injection E as <- <-; try exact P.
  intros n. cbn [cells]. destruct (Nat.lt_ge_cases n (length (cells G))) as [L|L].
  - rewrite nth_error_app1 by exact L. apply P.
  - rewrite nth_error_app2 by exact L. destruct (n - length (cells G)) as [|m]; cbn; [discriminate|destruct m; discriminate].
Qed.
Lemma identify_some G bv x i G' : identify undefined G bv x = (i, G') -> i <> IdNone.
Proof. unfold identify. intro E. destruct (identify_const G bv x) eqn:Ei; injection E as <- <-; congruence. Qed.
Lemma load_ok i c n k : i <> IdNone -> code_ok (S n) k c -> code_ok n k (load i c).
Proof. intros Hi H. destruct i; cbn; try contradiction; constructor; exact H. Qed.
Lemma store_ok i c n k : i <> IdNone -> code_ok (S n) k c -> code_ok (S n) k (store i c).
Proof. intros Hi H. destruct i; cbn; try contradiction; constructor; exact H. Qed.
Lemma load_app i c k : load i (c ++ k) = load i c ++ k. Proof. destruct i; reflexivity. Qed.
Lemma store_app i c k : store i (c ++ k) = store i c ++ k. Proof. destruct i; reflexivity. Qed.

Notation generate := (generate unspecified undefined).
Notation generate_syntax := (generate_syntax unspecified undefined).
Notation lambda := (lambda unspecified undefined).
Notation operand := (operand unspecified undefined).
Notation body := (body unspecified undefined).
Notation sequence := (sequence unspecified undefined).

(** [goes t c n k]: code c, to be entered with n + 1 values, is a legitimate continuation *)
Definition goes (t : bool) (c : code) (n : nat) (k : kont) : Prop := code_ok (S n) k c /\ (t = true -> c = [IReturn] /\ k = Returns).
Lemma gbind_ok m k c G : gbind m k = GOk c G -> exists c1 G1, m = GOk c1 G1 /\ k c1 G1 = GOk c G.
Proof. destruct m as [c1 G1| | |]; cbn; try discriminate. eauto. Qed.

Lemma generate_ok : forall fuel,
  (forall G f bv c t c1 G1, generate fuel G f bv c t = GOk c1 G1 -> plain G -> plain G1 /\
     (forall n k, goes t c n k -> code_ok n k c1) /\ (t = false -> forall z, generate fuel G f bv (c ++ z) t = GOk (c1 ++ z) G1)) /\
  (forall w G f bv c t c1 G1, generate_syntax fuel w G f bv c t = GOk c1 G1 -> w <> KCallCC -> plain G -> plain G1 /\
     (forall n k, goes t c n k -> code_ok n k c1) /\ (t = false -> forall z, generate_syntax fuel w G f bv (c ++ z) t = GOk (c1 ++ z) G1)) /\
  (forall G f bv c c1 G1, lambda fuel G f bv c = GOk c1 G1 -> plain G -> plain G1 /\
     (forall n k, code_ok (S n) k c -> code_ok n k c1) /\ (forall z, lambda fuel G f bv (c ++ z) = GOk (c1 ++ z) G1)) /\
  (forall G f bv c c1 G1, operand fuel G f bv c = GOk c1 G1 -> plain G -> plain G1 /\
     (forall n k, code_ok (S n) k c -> code_ok n k c1) /\ (forall z, operand fuel G f bv (c ++ z) = GOk (c1 ++ z) G1)) /\
  (forall G f bv c1 G1, body fuel G f bv [IReturn] = GOk c1 G1 -> plain G -> plain G1 /\ (forall n, code_ok n Returns c1)) /\
  (forall G f bv c t c1 G1, sequence fuel G f bv c t = GOk c1 G1 -> plain G -> plain G1 /\
     (forall n k, goes t c n k -> code_ok n k c1) /\ (t = false -> forall z, sequence fuel G f bv (c ++ z) t = GOk (c1 ++ z) G1)).
Proof.
  induction fuel as [|fuel (Hg & Hs & Hl & Ho & Hb & Hq)]; [repeat split; intros; discriminate|].
  assert (Hgf : forall G f bv c c1 G1, generate fuel G f bv c false = GOk c1 G1 -> plain G ->
     plain G1 /\ (forall n k, code_ok (S n) k c -> code_ok n k c1) /\ (forall z, generate fuel G f bv (c ++ z) false = GOk (c1 ++ z) G1)).
  { intros G f bv c c1 G1 E P. destruct (Hg G f bv c false c1 G1 E P) as (A & B & C). split; [exact A|]. split; [|apply C; reflexivity].
    intros n k H. apply B. split; [exact H|discriminate]. }
  split; [|split; [|split; [|split; [|split]]]].
  - (* generate *) intros G f bv c t c1 G1 E P. cbn [Generator.generate] in *. destruct f as [v|x|p a d].
    + injection E as <- <-. split; [exact P|]. split; [intros n k (H & _); constructor; exact H|reflexivity].
    + destruct (identify undefined G bv x) as (i & G') eqn:Ei. injection E as <- <-. split; [eapply identify_plain; eauto|].
      split; [intros n k (H & _); apply load_ok; [eapply identify_some; eauto|exact H]|]. intros _ z. rewrite load_app. reflexivity.
    + destruct (syntax_of G bv a) as [w|] eqn:Es.
      * apply Hs; [exact E|eapply syntax_of_plain; eauto|exact P].
      * apply gbind_ok in E. destruct E as (c2 & G2 & E1 & E2). destruct (Hgf _ _ _ _ _ _ E1 P) as (P2 & B1 & C1).
        destruct (Ho _ _ _ _ _ _ E2 P2) as (P3 & B2 & C2). split; [exact P3|]. split.
        -- intros n k (H & Ht). apply B2, B1. destruct t; [destruct (Ht eq_refl) as (_ & ->); constructor|constructor; exact H].
        -- intros -> z. change (ICall :: c ++ z) with ((ICall :: c) ++ z). rewrite C1. cbn. apply C2.
  - (* generate_syntax *) intros w G f bv c t c1 G1 E Hw P. cbn [Generator.generate_syntax] in *. destruct w; try contradiction.
    + apply Hq; assumption.
    + destruct f as [v|x|p [[|z|q]|x|q a1 a2] d]; try discriminate. injection E as <- <-. split; [exact P|]. split; [intros n k (H & _); constructor; exact H|reflexivity].
    + destruct bv as [|b bv]; [|discriminate]. destruct f as [v|x|p [v|x|p' a' d'] rest]; try discriminate.
      destruct (identify undefined G [] x) as (i & G') eqn:Ei. pose proof (identify_plain _ _ _ _ _ Ei P) as P'. pose proof (identify_some _ _ _ _ _ Ei) as Hi.
      destruct rest as [[| |]| |q a d]; try discriminate; destruct (Hgf _ _ _ _ _ _ E P') as (P2 & B & C);
        (split; [exact P2|]); (split; [intros n k (H & _); apply B, store_ok; assumption|]); intros _ z; rewrite store_app; apply C.
    + destruct f as [v|x|p a [v|x|p2 b rest]]; try discriminate.
      apply gbind_ok in E. destruct E as (cb & G2 & E1 & E). apply gbind_ok in E. destruct E as (cx & G3 & E2 & E3).
      destruct (Hg _ _ _ _ _ _ _ E1 P) as (P2 & B1 & C1).
      assert (Hx : plain G3 /\ (forall n k, goes t (if t then c else [IJoin]) n k -> code_ok n k cx)).
      { destruct rest as [[| |]| |q x d]; try discriminate.
        - injection E2 as <- <-. split; [exact P2|]. intros n k (H & Ht). constructor. destruct t; [destruct (Ht eq_refl) as (-> & ->); constructor|exact H].
        - destruct (Hg _ _ _ _ _ _ _ E2 P2) as (P3 & B2 & _). auto. }
      destruct Hx as (P3 & B2). destruct (Hgf _ _ _ _ _ _ E3 P3) as (P4 & B3 & C3). split; [exact P4|]. split.
      * intros n k (H & Ht). apply B3. destruct t.
        -- destruct (Ht eq_refl) as (-> & ->). constructor; [apply B1|apply B2]; split; auto.
        -- constructor; [apply B1|apply B2|exact H]; (split; [constructor|discriminate]).
      * intros -> z. rewrite E1. cbn [gbind]. rewrite E2. cbn [gbind]. change (ISelect cb cx :: c ++ z) with ((ISelect cb cx :: c) ++ z). apply C3.
    + destruct f as [v|x|p [[|z|q]|x|q a1 a2] [v|x'|p2 b rest]]; try discriminate.
      destruct (Hgf _ _ _ _ _ _ E P) as (P2 & B & C). split; [exact P2|]. split; [intros n k (H & _); apply B; constructor; exact H|].
      intros _ z'. change (IInstall (Z.to_nat z) :: c ++ z') with ((IInstall (Z.to_nat z) :: c) ++ z'). apply C.
    + destruct (Hl _ _ _ _ _ _ E P) as (P2 & B & C). split; [exact P2|]. split; [intros n k (H & _); apply B; exact H|]. intros _. exact C.
    + destruct f as [v|x|p b bd]; try discriminate. destruct (fmap fcar b) as [fs|]; [|discriminate]. destruct (fmap fcadr b) as [inits|]; [|discriminate].
      apply gbind_ok in E. destruct E as (c2 & G2 & E1 & E). apply gbind_ok in E. destruct E as (c3 & G3 & E2 & E3). injection E3 as <- <-.
      destruct (Hl _ _ _ _ _ _ E1 P) as (P2 & B1 & C1). destruct (Ho _ _ _ _ _ _ E2 P2) as (P3 & B2 & C2). split; [exact P3|]. split.
      * intros n k (H & Ht). constructor. apply B2, B1. destruct t; [destruct (Ht eq_refl) as (_ & ->); constructor|constructor; exact H].
      * intros -> z. change (ILetrec :: c ++ z) with ((ILetrec :: c) ++ z). rewrite C1. cbn [gbind]. rewrite C2. reflexivity.
    + destruct (fcar f) as [a|]; [|discriminate]. injection E as <- <-. split; [exact P|]. split; [intros n k (H & _); constructor; exact H|reflexivity].
    + destruct f as [v|x|p [v|x|q a1 a2] [w|y|p2 b rest]]; try discriminate.
      destruct (identify undefined G bv x) as (i & G') eqn:Ei. pose proof (identify_plain _ _ _ _ _ Ei P) as P'. pose proof (identify_some _ _ _ _ _ Ei) as Hi.
      destruct (Hgf _ _ _ _ _ _ E P') as (P2 & B & C). split; [exact P2|]. split; [intros n k (H & _); apply B, store_ok; assumption|].
      intros _ z. rewrite store_app. apply C.
  - (* lambda *) intros G f bv c c1 G1 E P. cbn [Generator.lambda] in *. destruct f as [v|x|p fs b]; try discriminate.
    apply gbind_ok in E. destruct E as (c2 & G2 & E1 & E). injection E as <- <-. destruct (Hb _ _ _ _ _ E1 P) as (P2 & B).
    split; [exact P2|]. split; [intros n k H; constructor; [apply B|exact H]|]. intros z. rewrite E1. reflexivity.
  - (* operand *) intros G f bv c c1 G1 E P. cbn [Generator.operand] in *. destruct f as [v|x|p a d]; try (apply Hgf; assumption).
    apply gbind_ok in E. destruct E as (c2 & G2 & E1 & E2). destruct (Hgf _ _ _ _ _ _ E1 P) as (P2 & B1 & C1).
    destruct (Ho _ _ _ _ _ _ E2 P2) as (P3 & B2 & C2). split; [exact P3|]. split.
    + intros n k H. apply B2, B1. constructor. exact H.
    + intros z. change (ICons :: c ++ z) with ((ICons :: c) ++ z). rewrite C1. cbn [gbind]. apply C2.
  - (* body *) intros G f bv c1 G1 E P. cbn [Generator.body] in *. destruct f as [v|x|p a d]; try discriminate. destruct (is_nil d).
    + destruct (Hg _ _ _ _ _ _ _ E P) as (P2 & B & _). split; [exact P2|]. intro n. apply B. split; [constructor|auto].
    + apply gbind_ok in E. destruct E as (c2 & G2 & E1 & E2). destruct (Hb _ _ _ _ _ E1 P) as (P2 & B1).
      destruct (Hgf _ _ _ _ _ _ E2 P2) as (P3 & B2 & _). split; [exact P3|]. intro n. apply B2. constructor. apply B1.
  - (* sequence *) intros G f bv c t c1 G1 E P. cbn [Generator.sequence] in *. destruct f as [v|x|p a d]; try discriminate. destruct (is_nil d).
    + apply Hg; assumption.
    + apply gbind_ok in E. destruct E as (c2 & G2 & E1 & E). apply gbind_ok in E. destruct E as (c3 & G3 & E2 & E3). injection E3 as <- <-.
      destruct (Hgf _ _ _ _ _ _ E1 P) as (P2 & B1 & C1). destruct (Hq _ _ _ _ _ _ _ E2 P2) as (P3 & B2 & C2). split; [exact P3|]. split.
      * intros n k H. pose proof (C1 (IDrop :: c3)) as E3. cbn [app] in E3. destruct (Hgf _ _ _ _ _ _ E3 P) as (_ & B3 & _).
        apply B3. constructor. apply B2. exact H.
      * intros Ht z. rewrite E1. cbn [gbind]. rewrite (C2 Ht z). cbn [gbind]. rewrite <- app_assoc. reflexivity.
Qed.
Lemma compile_ok fuel G f c G' : compile unspecified undefined fuel G f = GOk c G' -> plain G -> code_ok 0 Stops c /\ plain G'.
Proof.
  intros E P. destruct (proj1 (generate_ok fuel) G f [] [IStop] false c G' E P) as (A & B & _). split; [|exact A].
  apply B. split; [constructor|discriminate].
Qed.
End Generated.

Lemma primitive_ok n h xs h' v : primitive n h xs = PVal h' v -> heap_ok h -> heap_ok h'.
Proof.
  unfold primitive. intros E H.
  destruct n as [|[|[|[|[|[|[|[|[|[|n]]]]]]]]]]; cbn in E;
  repeat match type of E with
         | match ?t with _ => _ end = PVal _ _ => let Q := fresh "Q" in destruct t eqn:Q; subst; try discriminate
         end;
  try (injection E as <- <-; first [exact H|apply heap_ok_alloc; [exact H|exact I]|eapply heap_ok_set_car; eassumption|eapply heap_ok_set_cdr; eassumption]).
  all: discriminate.
Qed.

(** ** Programs *)
Lemma step_cells proc st st' : step proc st = Next st' -> forall n, nth_error (st_g st') n = nth_error (st_g st) n \/ exists v, nth_error (st_g st') n = Some (GVal v).
Proof.
  intros E n. destruct st as [s e c d h g a]. cbn [st_g]. unfold step in E. destruct c as [|i c]; [discriminate|]. destruct i; cbn in E.
  all: repeat match type of E with
       | match ?t with _ => _ end = Next _ => let Q := fresh "Q" in destruct t eqn:Q; subst; try discriminate
       end.
  all: injection E as <-; cbn [st_g]; try (left; reflexivity).
  assert (L : g0 < length g) by (apply Nat.ltb_lt; exact Q).
  destruct (Nat.eq_dec g0 n) as [<-|N]; [right; rewrite nth_update_eq by exact L; eauto|left; apply nth_update_neq; exact N].
Qed.
Lemma run_ok proc : (forall n h xs h' v, proc n h xs = PVal h' v -> heap_ok h -> heap_ok h') ->
  forall fuel st u st', run proc fuel st = Some (Halt u st') -> state_ok st -> (forall n, nth_error (st_g st) n <> Some (GSyntax KCallCC)) ->
  heap_ok (st_h st') /\ forall n, nth_error (st_g st') n <> Some (GSyntax KCallCC).
Proof.
  intro Hp. induction fuel as [|fuel IH]; intros st u st' E O P; [discriminate|]. cbn in E.
  destruct (step proc st) as [st1|v st1| |] eqn:Es; try discriminate.
  - apply (IH st1 u st' E); [eapply step_ok; eauto|]. intros n H. destruct (step_cells proc st st1 Es n) as [H1|(v & H1)]; rewrite H1 in H; [exact (P n H)|discriminate].
  - injection E as <- <-. assert (st1 = st); [|subst; split; [apply O|exact P]].
    destruct st as [s e c d h g a]. unfold step in Es. destruct c as [|i c]; [discriminate|]. destruct i; cbn in Es.
    all: repeat match type of Es with
         | match ?t with _ => _ end = Halt _ _ => destruct t; try discriminate
         end.
    all: congruence.
Qed.
Lemma evaluate_ok unspecified undefined fuel G h a f u G' h' a' : heap_ok h -> plain G ->
  evaluate unspecified undefined primitive fuel G h a f = Some (u, G', h', a') -> heap_ok h' /\ plain G'.
Proof.
  intros Hh P E. unfold evaluate in E. destruct (compile unspecified undefined fuel G f) as [c G1| | |] eqn:Ec; try discriminate.
  destruct (compile_ok _ _ _ _ _ _ _ Ec P) as (Hc & P1). unfold execute in E.
  destruct (run primitive fuel _) as [[st1|v st1| |]|] eqn:Er; try discriminate. injection E as <- <- <- <-.
  eapply (run_ok primitive primitive_ok) in Er; [|split; [exact Hh|exists Stops; split; [exact Hc|constructor]]|exact P1]. exact Er.
Qed.
Lemma program_supplied unspecified undefined fuel G h a f c G' st : heap_ok h -> plain G ->
  compile unspecified undefined fuel G f = GOk c G' -> reach primitive (St [] VNil c [] h (cells G') a) st -> supplied st.
Proof.
  intros Hh P Ec R. destruct (compile_ok _ _ _ _ _ _ _ Ec P) as (Hc & P1).
  eapply (reach_supplied primitive primitive_ok); [exact R|]. split; [exact Hh|]. exists Stops. split; [exact Hc|constructor].
Qed.
