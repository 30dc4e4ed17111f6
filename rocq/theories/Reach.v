(** Symbolic execution of the machine of Machine.v: what a state reaches. *)
From Coq Require Import ZArith List Bool Lia.
From Verif Require Import Machine Generator Evaluate LibraryCode.
Import ListNotations.

(** Private objects: which object is at an address *)
Definition frame := nat -> obj -> Prop.
Definition sub (P P' : frame) : Prop := forall q o, P q o -> P' q o.
Definition add (P : frame) (p : nat) (o : obj) : frame := fun q o' => P q o' \/ (q = p /\ o' = o).
Definition put (P : frame) (p : nat) (o : obj) : frame := fun q o' => (q <> p /\ P q o') \/ (q = p /\ o' = o).
Lemma sub_refl P : sub P P. Proof. intros q o H. exact H. Qed.
Lemma sub_trans P Q R : sub P Q -> sub Q R -> sub P R. Proof. intros A B q o H. apply B, A, H. Qed.

(** A list of values, an environment of frames of values *)
Inductive lst (P : frame) : val -> list val -> Prop :=
| L_nil : lst P VNil []
| L_cons p x v xs : P p (OPair x v) -> lst P v xs -> lst P (VPtr p) (x :: xs).
Inductive env (P : frame) : val -> list (list val) -> Prop :=
| E_nil : env P VNil []
| E_cons p v xs e fs : P p (OPair v e) -> lst P v xs -> env P e fs -> env P (VPtr p) (xs :: fs).
Lemma lst_up P P' v xs : sub P P' -> lst P v xs -> lst P' v xs.
Proof. intros S. induction 1; econstructor; eauto. Qed.
Lemma env_up P P' v xs : sub P P' -> env P v xs -> env P' v xs.
Proof. intros S. induction 1; econstructor; eauto using lst_up. Qed.

(** The objects of the library *)
Definition lib (P : frame) : Prop := forall q o, nth_error library_heap q = Some o -> P q o.
Lemma lib_up P P' : sub P P' -> lib P -> lib P'.
Proof. intros S L q o H. apply S, L, H. Qed.

(** ** An invariant of the program around the library: [ghost] is what the program
    remembers, P are the objects it does not write into, [own] the registers that it
    leaves to the library *)
Record invariant {ghost : Type} (own : nat -> Prop) (Inv : ghost -> heap -> list gval -> list val -> frame -> Prop) : Prop := {
  inv_has l h g a P q o : Inv l h g a P -> P q o -> nth_error h q = Some o;
  inv_alloc l h g a P o : Inv l h g a P -> Inv l (h ++ [o]) g a (add P (length h) o);
  inv_less l h g a P P' : sub P' P -> Inv l h g a P -> Inv l h g a P';
  inv_write l h g a P q x y x' y' : Inv l h g a P -> P q (OPair x y) -> Inv l (update h q (OPair x' y')) g a (put P q (OPair x' y'));
  inv_install l h g a P i x : own i -> Inv l h g a P -> Inv l h g (update a i x) P;
  inv_cells l h g a P i v : Inv l h g a P -> nth_error (cells library_env) i = Some (GVal v) -> nth_error g i = Some (GVal v);
  inv_registers l h g a P : Inv l h g a P -> length a = 4 }.

Section Reach.
Variable proc : nat -> heap -> val -> presult.
Hypothesis Proc : forall n h xs, n < length procedures -> proc n h xs = library_primitive n h xs.
Variable ghost : Type.
Variable Inv : ghost -> heap -> list gval -> list val -> frame -> Prop.
Variable own : nat -> Prop.
Hypothesis Ok : invariant own Inv.

Inductive steps : state -> state -> Prop :=
| S_refl st : steps st st
| S_step st st1 st2 : step proc st = Next st1 -> steps st1 st2 -> steps st st2.
Lemma steps_trans st1 st2 st3 : steps st1 st2 -> steps st2 st3 -> steps st1 st3.
Proof. induction 1; [auto|]. intros H'. econstructor; [eassumption|]. auto. Qed.
Definition reaches (st : state) (Q : state -> Prop) : Prop := exists st', steps st st' /\ Q st'.
Lemma r_done st (Q : state -> Prop) : Q st -> reaches st Q.
Proof. intros H. exists st. split; [constructor|exact H]. Qed.
Lemma r_next st st' Q : step proc st = Next st' -> reaches st' Q -> reaches st Q.
Proof. intros E (st2 & S & H). exists st2. split; [econstructor; eassumption|exact H]. Qed.
Lemma r_bind st Q R : reaches st Q -> (forall st', Q st' -> reaches st' R) -> reaches st R.
Proof. intros (st1 & S & H) K. destruct (K st1 H) as (st2 & S2 & H2). exists st2. split; [eapply steps_trans; eassumption|exact H2]. Qed.

(** ** Instructions *)
Lemma r_const s e c d h g a v Q : reaches (St (v :: s) e c d h g a) Q -> reaches (St s e (ILoadConstant v :: c) d h g a) Q.
Proof. apply r_next. reflexivity. Qed.
Lemma r_drop x s e c d h g a Q : reaches (St s e c d h g a) Q -> reaches (St (x :: s) e (IDrop :: c) d h g a) Q.
Proof. apply r_next. reflexivity. Qed.
Lemma r_absolute l s e c d h g a P n v Q : Inv l h g a P -> nth_error (cells library_env) n = Some (GVal v) ->
  reaches (St (v :: s) e c d h g a) Q -> reaches (St s e (ILoadAbsolute n :: c) d h g a) Q.
Proof. intros I N. apply r_next. cbn [step]. rewrite (inv_cells _ _ Ok _ _ _ _ _ _ _ I N). reflexivity. Qed.
Lemma r_current l s e c d h g a P i v Q : Inv l h g a P -> nth_error a i = Some v ->
  reaches (St (v :: s) e c d h g a) Q -> reaches (St s e (ICurrent i :: c) d h g a) Q.
Proof. intros I N. apply r_next. cbn [step]. rewrite N. reflexivity. Qed.
Lemma r_install l x s e c d h g a P i Q : Inv l h g a P -> own i -> i < 4 ->
  (Inv l h g (update a i x) P -> reaches (St (x :: s) e c d h g (update a i x)) Q) ->
  reaches (St (x :: s) e (IInstall i :: c) d h g a) Q.
Proof.
  intros I O L K. eapply r_next; [|apply K, (inv_install _ _ Ok); assumption]. cbn [step].
  pose proof (inv_registers _ _ Ok _ _ _ _ _ I). destruct (Nat.ltb_spec i (length a)); [reflexivity|lia].
Qed.
Lemma car_in l h g a P p x y : Inv l h g a P -> P p (OPair x y) -> car h (VPtr p) = Some x.
Proof. intros I H. cbn [car]. rewrite (inv_has _ _ Ok _ _ _ _ _ _ _ I H). reflexivity. Qed.
Lemma cdr_in l h g a P p x y : Inv l h g a P -> P p (OPair x y) -> cdr h (VPtr p) = Some y.
Proof. intros I H. cbn [cdr]. rewrite (inv_has _ _ Ok _ _ _ _ _ _ _ I H). reflexivity. Qed.
Lemma lst_tail l h g a P v xs n : Inv l h g a P -> lst P v xs -> n <= length xs -> exists w, tail h v n = Some w /\ lst P w (skipn n xs).
Proof.
  intros I L. revert n. induction L as [|p x v xs H L IH]; intros n N; destruct n as [|n]; cbn [length tail skipn] in *; try lia.
  - eexists. split; [reflexivity|constructor].
  - eexists. split; [reflexivity|econstructor; eassumption].
  - rewrite (cdr_in _ _ _ _ _ _ _ _ I H). apply IH. lia.
Qed.
Lemma lst_head l h g a P v xs n x : Inv l h g a P -> lst P v xs -> nth_error xs n = Some x -> head h v n = Some x.
Proof.
  intros I L N. unfold head. destruct (lst_tail _ _ _ _ _ _ _ n I L) as (w & -> & Lw).
  - apply Nat.lt_le_incl, nth_error_Some. congruence.
  - assert (E : skipn n xs = x :: skipn (S n) xs).
    { clear -N. revert xs N. induction n as [|n IH]; intros [|y xs] N; cbn in *; try discriminate; [congruence|apply IH, N]. }
    rewrite E in Lw. inversion Lw; subst. eapply car_in; eassumption.
Qed.
Lemma env_head l h g a P e fs i xs : Inv l h g a P -> env P e fs -> nth_error fs i = Some xs ->
  exists v, head h e i = Some v /\ lst P v xs.
Proof.
  intros I E. revert i. induction E as [|p v ys e fs H L E IH]; intros [|i] N; cbn in N; try discriminate.
  - injection N as ->. exists v. split; [|exact L]. unfold head. cbn [tail]. eapply car_in; eassumption.
  - destruct (IH i N) as (w & Hw & Lw). exists w. split; [|exact Lw]. unfold head in *. cbn [tail]. rewrite (cdr_in _ _ _ _ _ _ _ _ I H). exact Hw.
Qed.
Lemma r_relative l s e c d h g a P i j fs xs x Q : Inv l h g a P -> env P e fs -> nth_error fs i = Some xs -> nth_error xs j = Some x ->
  reaches (St (x :: s) e c d h g a) Q -> reaches (St s e (ILoadRelative i j :: c) d h g a) Q.
Proof.
  intros I E N M. apply r_next. cbn [step]. destruct (env_head _ _ _ _ _ _ _ _ _ I E N) as (v & -> & L). cbn [obind].
  rewrite (lst_head _ _ _ _ _ _ _ _ _ I L M). reflexivity.
Qed.
Lemma r_variadic l s e c d h g a P i j fs xs Q : Inv l h g a P -> env P e fs -> nth_error fs i = Some xs -> j <= length xs ->
  (forall v, lst P v (skipn j xs) -> reaches (St (v :: s) e c d h g a) Q) -> reaches (St s e (ILoadVariadic i j :: c) d h g a) Q.
Proof.
  intros I E N M K. destruct (env_head _ _ _ _ _ _ _ _ _ I E N) as (v & Hv & L). destruct (lst_tail _ _ _ _ _ _ _ j I L M) as (w & Hw & Lw).
  eapply r_next; [|apply K, Lw]. cbn [step]. rewrite Hv. cbn [obind]. rewrite Hw. reflexivity.
Qed.
(** Allocation *)
Lemma add_sub P p o : sub P (add P p o). Proof. intros q o' H. left. exact H. Qed.
Lemma add_new P p o : add P p o p o. Proof. right. split; reflexivity. Qed.
Lemma r_cons l x y s e c d h g a P Q : Inv l h g a P ->
  (forall p h' P', Inv l h' g a P' -> sub P P' -> P' p (OPair x y) -> reaches (St (VPtr p :: s) e c d h' g a) Q) ->
  reaches (St (x :: y :: s) e (ICons :: c) d h g a) Q.
Proof. intros I K. eapply r_next; [reflexivity|]. eapply K; [apply (inv_alloc _ _ Ok); exact I|apply add_sub|apply add_new]. Qed.
(** The new pair is none of the objects that there were *)
Lemma r_cons_new l x y s e c d h g a P Q : Inv l h g a P ->
  (forall p h' P', Inv l h' g a P' -> sub P P' -> P' p (OPair x y) -> (forall r o, P r o -> r <> p) -> reaches (St (VPtr p :: s) e c d h' g a) Q) ->
  reaches (St (x :: y :: s) e (ICons :: c) d h g a) Q.
Proof.
  intros I K. eapply r_next; [reflexivity|]. eapply K; [apply (inv_alloc _ _ Ok); exact I|apply add_sub|apply add_new|].
  intros r o H ->. apply (inv_has _ _ Ok _ _ _ _ _ _ _ I) in H. assert (length h < length h) by (apply nth_error_Some; congruence). lia.
Qed.
Lemma r_closure l s e c d h g a P c' Q : Inv l h g a P ->
  (forall p h' P', Inv l h' g a P' -> sub P P' -> P' p (OClosure c' e) -> reaches (St (VPtr p :: s) e c d h' g a) Q) ->
  reaches (St s e (ILoadClosure c' :: c) d h g a) Q.
Proof. intros I K. eapply r_next; [reflexivity|]. eapply K; [apply (inv_alloc _ _ Ok); exact I|apply add_sub|apply add_new]. Qed.
Lemma r_continuation l s e c d h g a P c' Q : Inv l h g a P ->
  (forall p q h' P', Inv l h' g a P' -> sub P P' -> P' p (OContinuation s e c' d) -> P' q (OPair (VPtr p) VNil) ->
     reaches (St (VPtr q :: s) e c d h' g a) Q) ->
  reaches (St s e (ILoadContinuation c' :: c) d h g a) Q.
Proof.
  intros I K. eapply r_next; [reflexivity|]. eapply K; [do 2 apply (inv_alloc _ _ Ok); exact I| | |apply add_new].
  - eapply sub_trans; apply add_sub.
  - apply add_sub, add_new.
Qed.
(** Assignment to a variable of the innermost frame *)
Lemma update_at {A} (l : list A) n x y : nth_error l n = Some y -> nth_error (update l n x) n = Some x.
Proof. revert n. induction l as [|z l IH]; intros [|n] H; cbn in *; try discriminate; auto. Qed.
Lemma r_store l x s e c d h g a P p q y v e' Q : Inv l h g a P -> e = VPtr p -> P p (OPair (VPtr q) e') -> P q (OPair y v) ->
  (forall h' P', Inv l h' g a P' -> (forall r o, P r o -> r <> q -> P' r o) -> P' q (OPair x v) -> reaches (St (x :: s) e c d h' g a) Q) ->
  reaches (St (x :: s) e (IStoreRelative 0 0 :: c) d h g a) Q.
Proof.
  intros I -> Hp Hq K. eapply r_next.
  - cbn [step]. unfold store_relative, head. cbn [tail]. rewrite (car_in _ _ _ _ _ _ _ _ I Hp). cbn [obind set_car].
    rewrite (inv_has _ _ Ok _ _ _ _ _ _ _ I Hq). reflexivity.
  - apply K with (P' := put P q (OPair x v)).
    + eapply (inv_write _ _ Ok); eassumption.
    + intros r o Hr N. left. split; assumption.
    + right. split; reflexivity.
Qed.
(** Conditionals *)
Lemma r_select x s e c1 c2 c d h g a Q : reaches (St s e (if val_eqb x f_ then c2 else c1) (DC c :: d) h g a) Q ->
  reaches (St (x :: s) e (ISelect c1 c2 :: c) d h g a) Q.
Proof. apply r_next. reflexivity. Qed.
Lemma r_tail_select x s e c1 c2 c d h g a Q : reaches (St s e (if val_eqb x f_ then c2 else c1) d h g a) Q ->
  reaches (St (x :: s) e (ITailSelect c1 c2 :: c) d h g a) Q.
Proof. apply r_next. reflexivity. Qed.
Lemma r_join s e c0 c d h g a Q : reaches (St s e c d h g a) Q -> reaches (St s e (IJoin :: c0) (DC c :: d) h g a) Q.
Proof. apply r_next. reflexivity. Qed.
Lemma r_return x s0 e0 c0 s e c d h g a Q : reaches (St (x :: s) e c d h g a) Q ->
  reaches (St (x :: s0) e0 (IReturn :: c0) (DS s :: DE e :: DC c :: d) h g a) Q.
Proof. apply r_next. reflexivity. Qed.

(** ** Calls, in any position: the continuation is (s, e, c, d) *)
Inductive calling (x xs : val) (s : list val) (e : val) (c : code) (d : dump) (h : heap) (g : list gval) (a : list val) : state -> Prop :=
| C_call : calling x xs s e c d h g a (St (x :: xs :: s) e (ICall :: c) d h g a)
| C_tail s0 e0 c0 : calling x xs s e c d h g a (St (x :: xs :: s0) e0 (ITailCall :: c0) (DS s :: DE e :: DC c :: d) h g a).
Definition calls (x xs : val) (s : list val) (e : val) (c : code) (d : dump) (h : heap) (g : list gval) (a : list val) (Q : state -> Prop) : Prop :=
  forall st, calling x xs s e c d h g a st -> reaches st Q.
Lemma calls_bind x xs s e c d h g a Q R : calls x xs s e c d h g a Q -> (forall st', Q st' -> reaches st' R) -> calls x xs s e c d h g a R.
Proof. intros H K st C. eapply r_bind; [apply H, C|exact K]. Qed.
Lemma c_closure l p xs s e c d h g a P c' e' Q : Inv l h g a P -> P p (OClosure c' e') ->
  (forall r h' P', Inv l h' g a P' -> sub P P' -> P' r (OPair xs e') -> reaches (St [] (VPtr r) c' (DS s :: DE e :: DC c :: d) h' g a) Q) ->
  calls (VPtr p) xs s e c d h g a Q.
Proof.
  intros I H K st [|s0 e0 c0]; (eapply r_next; [cbn [step callee]; rewrite (inv_has _ _ Ok _ _ _ _ _ _ _ I H); reflexivity|]);
    (eapply K; [apply (inv_alloc _ _ Ok); exact I|apply add_sub|apply add_new]).
Qed.
(** The same, when the arguments are a private list *)
Lemma c_private l p xs s e c d h g a P c' e' vs fs Q : Inv l h g a P -> P p (OClosure c' e') -> lst P xs vs -> env P e' fs ->
  (forall r h' P', Inv l h' g a P' -> sub P P' -> env P' r (vs :: fs) -> reaches (St [] r c' (DS s :: DE e :: DC c :: d) h' g a) Q) ->
  calls (VPtr p) xs s e c d h g a Q.
Proof.
  intros I H L E K. eapply c_closure; [exact I|exact H|]. intros r h' P' I' U N. apply (K (VPtr r) h' P' I' U).
  econstructor; [exact N|eapply lst_up; eassumption|eapply env_up; eassumption].
Qed.
Lemma c_procedure l p xs s e c d h g a P n h' v Q : Inv l h g a P -> P p (OProcedure n) -> proc n h xs = PVal h' v ->
  reaches (St (v :: s) e c d h' g a) Q -> calls (VPtr p) xs s e c d h g a Q.
Proof.
  intros I H E K st [|s0 e0 c0]; (eapply r_next; [cbn [step callee]; rewrite (inv_has _ _ Ok _ _ _ _ _ _ _ I H), E; reflexivity|exact K]).
Qed.
Lemma c_continuation l p xs s e c d h g a P s' e' c' d' v Q : Inv l h g a P -> P p (OContinuation s' e' c' d') -> lst P xs [v] ->
  reaches (St (v :: s') e' c' d' h g a) Q -> calls (VPtr p) xs s e c d h g a Q.
Proof.
  intros I H L K. inversion L as [|q x w ys Hq L']; subst.
  intros st [|s0 e0 c0]; (eapply r_next; [cbn [step callee]; rewrite (inv_has _ _ Ok _ _ _ _ _ _ _ I H), (car_in _ _ _ _ _ _ _ _ I Hq); reflexivity|exact K]).
Qed.
Lemma r_call x xs s e c d h g a Q : calls x xs s e c d h g a Q -> reaches (St (x :: xs :: s) e (ICall :: c) d h g a) Q.
Proof. intros H. apply H. constructor. Qed.
Lemma r_tail_call x xs s e c d s0 e0 c0 h g a Q : calls x xs s e c d h g a Q ->
  reaches (St (x :: xs :: s0) e0 (ITailCall :: c0) (DS s :: DE e :: DC c :: d) h g a) Q.
Proof. intros H. apply H. constructor. Qed.

(** ** Primitives *)
Ltac prim := rewrite Proc by (cbn; lia); cbn [library_primitive primitive].
Lemma p_cons l h g a P xs x y : Inv l h g a P -> lst P xs [x; y] -> proc 0 h xs = PVal (h ++ [OPair x y]) (VPtr (length h)).
Proof. intros I L. prim. rewrite (lst_head _ _ _ _ _ _ _ 0 x I L), (lst_head _ _ _ _ _ _ _ 1 y I L) by reflexivity. reflexivity. Qed.
Lemma p_car l h g a P xs p x y : Inv l h g a P -> lst P xs [VPtr p] -> P p (OPair x y) -> proc 1 h xs = PVal h x.
Proof. intros I L H. prim. rewrite (lst_head _ _ _ _ _ _ _ 0 _ I L), (car_in _ _ _ _ _ _ _ _ I H) by reflexivity. reflexivity. Qed.
Lemma p_cdr l h g a P xs p x y : Inv l h g a P -> lst P xs [VPtr p] -> P p (OPair x y) -> proc 2 h xs = PVal h y.
Proof. intros I L H. prim. rewrite (lst_head _ _ _ _ _ _ _ 0 _ I L), (cdr_in _ _ _ _ _ _ _ _ I H) by reflexivity. reflexivity. Qed.
Lemma p_eq l h g a P xs x y : Inv l h g a P -> lst P xs [x; y] -> proc 5 h xs = PVal h (make_bool (val_eqb x y)).
Proof. intros I L. prim. rewrite (lst_head _ _ _ _ _ _ _ 0 x I L), (lst_head _ _ _ _ _ _ _ 1 y I L) by reflexivity. reflexivity. Qed.
Lemma p_pair l h g a P xs p x y : Inv l h g a P -> lst P xs [VPtr p] -> P p (OPair x y) -> proc 6 h xs = PVal h t_.
Proof. intros I L H. prim. rewrite (lst_head _ _ _ _ _ _ _ 0 _ I L) by reflexivity. cbn [callee]. rewrite (inv_has _ _ Ok _ _ _ _ _ _ _ I H). reflexivity. Qed.
Lemma p_pair_nil l h g a P xs : Inv l h g a P -> lst P xs [VNil] -> proc 6 h xs = PVal h f_.
Proof. intros I L. prim. rewrite (lst_head _ _ _ _ _ _ _ 0 _ I L) by reflexivity. reflexivity. Qed.
Lemma p_null l h g a P xs x : Inv l h g a P -> lst P xs [x] -> proc 7 h xs = PVal h (make_bool (val_eqb x VNil)).
Proof. intros I L. prim. rewrite (lst_head _ _ _ _ _ _ _ 0 x I L) by reflexivity. reflexivity. Qed.
Lemma p_caar l h g a P xs p q x y z : Inv l h g a P -> lst P xs [VPtr p] -> P p (OPair (VPtr q) z) -> P q (OPair x y) -> proc 10 h xs = PVal h x.
Proof.
  intros I L H H'. prim. rewrite (lst_head _ _ _ _ _ _ _ 0 _ I L), (car_in _ _ _ _ _ _ _ _ I H) by reflexivity. cbn [ob].
  rewrite (car_in _ _ _ _ _ _ _ _ I H'). reflexivity.
Qed.
Lemma p_cdar l h g a P xs p q x y z : Inv l h g a P -> lst P xs [VPtr p] -> P p (OPair (VPtr q) z) -> P q (OPair x y) -> proc 11 h xs = PVal h y.
Proof.
  intros I L H H'. prim. rewrite (lst_head _ _ _ _ _ _ _ 0 _ I L), (car_in _ _ _ _ _ _ _ _ I H) by reflexivity. cbn [ob].
  rewrite (cdr_in _ _ _ _ _ _ _ _ I H'). reflexivity.
Qed.
End Reach.
