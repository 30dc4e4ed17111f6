(** Symbolic execution of library code: the procedures of the library that C++ defines,
    and tactics. *)
From Coq Require Import ZArith List Bool Lia.
From Verif Require Import Machine Generator Evaluate LibraryCode Reach.
Import ListNotations.

(** ** Lists in a frame *)
Section Lists.
Variable P : frame.
Hypothesis Unique : forall q o o', P q o -> P q o' -> o = o'.
Lemma lst_unique us : forall v ws, lst P v us -> lst P v ws -> us = ws.
Proof.
  induction us as [|u us IH]; intros v ws A B; inversion A; subst; inversion B; subst; [reflexivity|].
  match goal with X : P ?p ?o, Y : P ?p ?o' |- _ => pose proof (Unique _ _ _ X Y) as E end. injection E as -> ->. f_equal. eapply IH; eassumption.
Qed.
(** The places of a list are different *)
Lemma lst_places n v us : (forall q o, P q o -> q < n) -> lst P v us ->
  exists D, length D = length us /\ NoDup D /\ (forall q, In q D -> q < n /\ exists ws, lst P (VPtr q) ws /\ length ws <= length us).
Proof.
  intros Low. induction 1 as [|p x v xs H L (D & Len & ND & All)].
  - exists []. split; [reflexivity|]. split; [constructor|intros q []].
  - exists (p :: D). split; [cbn; lia|]. split.
    + constructor; [|exact ND]. intros Hin. destruct (All p Hin) as (_ & ws & Lw & Le).
      assert (x :: xs = ws) as E by (eapply lst_unique; [econstructor; eassumption|exact Lw]). subst ws. cbn in Le. lia.
    + intros q [<-|Hq].
      * split; [eapply Low; exact H|]. exists (x :: xs). split; [econstructor; eassumption|apply Nat.le_refl].
      * destruct (All q Hq) as (A & ws & Lw & Le). split; [exact A|]. exists ws. split; [exact Lw|cbn; lia].
Qed.
Lemma lst_short n v us : (forall q o, P q o -> q < n) -> lst P v us -> length us <= n.
Proof.
  intros Low L. destruct (lst_places n v us Low L) as (D & Len & ND & All). rewrite <- Len.
  rewrite <- (seq_length n 0). apply NoDup_incl_length; [exact ND|]. intros q Hq. apply in_seq. destruct (All q Hq) as [A _]. lia.
Qed.
End Lists.
Lemma lst_app_in P v us : lst P v us -> forall x, In x us -> exists q w, P q (OPair x w).
Proof. induction 1 as [|p y v xs H L IH]; intros x []; [subst; eauto|auto]. Qed.

Section Procedures.
Variable proc : nat -> heap -> val -> presult.
Hypothesis Proc : forall n h xs, n < length procedures -> proc n h xs = library_primitive n h xs.
Variable ghost : Type.
Variable Inv : ghost -> heap -> list gval -> list val -> frame -> Prop.
Variable own : nat -> Prop.
Hypothesis Ok : invariant own Inv.
Notation reaches := (reaches proc).
Notation calls := (calls proc).

(** ** Procedures that return *)
(** From the state of the program l, the registers a and a frame around P, a call of x
    with the arguments xs gets the program to [Q], if this is so of its continuation from
    all states in which the value, the state of the program, the registers and the frame,
    which may have grown, are as said.  In short: x returns, and then [post].  But x may
    also get to Q without having returned, and its continuation may be entered again. *)
Section Returns.
Variable Q : state -> Prop.
Definition accepts (s : list val) (e : val) (c : code) (d : dump) (P : frame) (post : val -> ghost -> list val -> frame -> Prop) : Prop :=
  forall v l h g a P', Inv l h g a P' -> sub P P' -> post v l a P' -> reaches (St (v :: s) e c d h g a) Q.
Definition returns (x xs : val) (l : ghost) (a : list val) (P : frame) (post : val -> ghost -> list val -> frame -> Prop) : Prop :=
  forall h g P' s e c d, Inv l h g a P' -> sub P P' -> accepts s e c d P' post -> calls x xs s e c d h g a Q.
Lemma returns_up x xs l a P P' post : sub P P' -> returns x xs l a P post -> returns x xs l a P' post.
Proof. intros U H h g P2 s e c d I V. apply H; [exact I|eapply sub_trans; eassumption]. Qed.
Lemma returns_mono x xs l a P (post post' : val -> ghost -> list val -> frame -> Prop) :
  (forall v l' a' P', sub P P' -> post v l' a' P' -> post' v l' a' P') ->
  returns x xs l a P post -> returns x xs l a P post'.
Proof.
  intros M H h g P' s e c d I U K. apply (H h g P'); [exact I|exact U|]. intros v l' h' g' a' P2 I2 U2 N.
  eapply K; [exact I2|exact U2|]. apply M; [eapply sub_trans; eassumption|exact N].
Qed.
Lemma returns_last x xs l a P P0 post h g s e c d : returns x xs l a P post -> Inv l h g a P -> sub P0 P -> accepts s e c d P0 post -> calls x xs s e c d h g a Q.
Proof. intros H I U K. eapply H; [exact I|apply sub_refl|]. intros v l' h' g' a' P2 I2 U2 N. eapply K; [exact I2|eapply sub_trans; eassumption|exact N]. Qed.
End Returns.

Lemma inv_unique l h g a P : Inv l h g a P -> forall q o o', P q o -> P q o' -> o = o'.
Proof. intros I q o o' A B. apply (inv_has _ _ Ok _ _ _ _ _ _ _ I) in A. apply (inv_has _ _ Ok _ _ _ _ _ _ _ I) in B. congruence. Qed.
Lemma inv_low l h g a P : Inv l h g a P -> forall q o, P q o -> q < length h.
Proof. intros I q o A. apply (inv_has _ _ Ok _ _ _ _ _ _ _ I) in A. apply nth_error_Some. congruence. Qed.
Lemma inv_short l h g a P v us : Inv l h g a P -> lst P v us -> length us <= length h.
Proof. intros I. apply lst_short; [exact (inv_unique _ _ _ _ _ I)|exact (inv_low _ _ _ _ _ I)]. Qed.

Lemma procedure_is k : k < length procedures -> nth_error library_heap (103 + k) = Some (OProcedure k).
Proof. intros H. do 22 (destruct k as [|k]; [reflexivity|]). cbn in H. lia. Qed.
(** A call of a procedure of C++ *)
Lemma c_prim l k h g a P xs s e c d h' v Q : Inv l h g a P -> lib P -> k < length procedures -> library_primitive k h xs = PVal h' v ->
  reaches (St (v :: s) e c d h' g a) Q -> calls (VPtr (103 + k)) xs s e c d h g a Q.
Proof.
  intros I L Hk E K. eapply (c_procedure proc _ Inv own Ok); [exact I|apply L, procedure_is, Hk|rewrite Proc by exact Hk; exact E|exact K].
Qed.

Section Call.
Variable l : ghost.
Variable h : heap.
Variable g : list gval.
Variable a : list val.
Variable P : frame.
Hypothesis I : Inv l h g a P.
Hypothesis L : lib P.
Variables (s : list val) (e : val) (c : code) (d : dump).
Variable Q : state -> Prop.
Let has q o (H : P q o) : nth_error h q = Some o := inv_has _ _ Ok _ _ _ _ _ _ _ I H.
Ltac arg n x A := rewrite (lst_head _ _ _ Ok _ _ _ _ _ _ _ n x I A) by reflexivity.

Lemma c_car xs v x ys : lst P xs [v] -> lst P v (x :: ys) -> reaches (St (x :: s) e c d h g a) Q -> calls (VPtr 104) xs s e c d h g a Q.
Proof.
  intros A B K. inversion B as [|p y w zs Hp B']; subst. eapply (c_prim l 1); [exact I|exact L|cbn; lia| |exact K]. cbn [library_primitive primitive].
  arg 0 (VPtr p) A. cbn [car]. rewrite (has _ _ Hp). reflexivity.
Qed.
Lemma c_car_pair xs p x y : lst P xs [VPtr p] -> P p (OPair x y) -> reaches (St (x :: s) e c d h g a) Q -> calls (VPtr 104) xs s e c d h g a Q.
Proof.
  intros A Hp K. eapply (c_prim l 1); [exact I|exact L|cbn; lia| |exact K]. cbn [library_primitive primitive].
  arg 0 (VPtr p) A. cbn [car]. rewrite (has _ _ Hp). reflexivity.
Qed.
Lemma c_cdr xs v x ys : lst P xs [v] -> lst P v (x :: ys) -> (forall w, lst P w ys -> reaches (St (w :: s) e c d h g a) Q) -> calls (VPtr 105) xs s e c d h g a Q.
Proof.
  intros A B K. inversion B as [|p y w zs Hp B']; subst. eapply (c_prim l 2); [exact I|exact L|cbn; lia| |exact (K w B')]. cbn [library_primitive primitive].
  arg 0 (VPtr p) A. cbn [cdr]. rewrite (has _ _ Hp). reflexivity.
Qed.
Lemma c_cdr_pair xs p x y : lst P xs [VPtr p] -> P p (OPair x y) -> reaches (St (y :: s) e c d h g a) Q -> calls (VPtr 105) xs s e c d h g a Q.
Proof.
  intros A Hp K. eapply (c_prim l 2); [exact I|exact L|cbn; lia| |exact K]. cbn [library_primitive primitive].
  arg 0 (VPtr p) A. cbn [cdr]. rewrite (has _ _ Hp). reflexivity.
Qed.
Lemma c_null xs x : lst P xs [x] -> reaches (St (make_bool (val_eqb x VNil) :: s) e c d h g a) Q -> calls (VPtr 110) xs s e c d h g a Q.
Proof. intros A K. eapply (c_prim l 7); [exact I|exact L|cbn; lia| |exact K]. cbn [library_primitive primitive]. arg 0 x A. reflexivity. Qed.
Lemma c_null_lst xs v us : lst P xs [v] -> lst P v us -> reaches (St (match us with [] => t_ | _ => f_ end :: s) e c d h g a) Q -> calls (VPtr 110) xs s e c d h g a Q.
Proof. intros A B K. eapply c_null; [exact A|]. destruct B; exact K. Qed.
Lemma c_eq xs x y : lst P xs [x; y] -> reaches (St (make_bool (val_eqb x y) :: s) e c d h g a) Q -> calls (VPtr 108) xs s e c d h g a Q.
Proof. intros A K. eapply (c_prim l 5); [exact I|exact L|cbn; lia| |exact K]. cbn [library_primitive primitive]. arg 0 x A. arg 1 y A. reflexivity. Qed.
Lemma c_caar xs p q x y z : lst P xs [VPtr p] -> P p (OPair (VPtr q) z) -> P q (OPair x y) -> reaches (St (x :: s) e c d h g a) Q -> calls (VPtr 113) xs s e c d h g a Q.
Proof.
  intros A H H' K. eapply (c_prim l 10); [exact I|exact L|cbn; lia| |exact K]. cbn [library_primitive]. arg 0 (VPtr p) A. cbn [car]. rewrite (has _ _ H). cbn [ob car]. rewrite (has _ _ H'). reflexivity.
Qed.
Lemma c_cdar xs p q x y z : lst P xs [VPtr p] -> P p (OPair (VPtr q) z) -> P q (OPair x y) -> reaches (St (y :: s) e c d h g a) Q -> calls (VPtr 114) xs s e c d h g a Q.
Proof.
  intros A H H' K. eapply (c_prim l 11); [exact I|exact L|cbn; lia| |exact K]. cbn [library_primitive]. arg 0 (VPtr p) A. cbn [car]. rewrite (has _ _ H). cbn [ob cdr]. rewrite (has _ _ H'). reflexivity.
Qed.
Lemma c_new xs x y : lst P xs [x; y] ->
  (forall p h' P', Inv l h' g a P' -> sub P P' -> P' p (OPair x y) -> (forall r o, P r o -> r <> p) -> reaches (St (VPtr p :: s) e c d h' g a) Q) ->
  calls (VPtr 103) xs s e c d h g a Q.
Proof.
  intros A K. eapply (c_prim l 0); [exact I|exact L|cbn; lia| |].
  - cbn [library_primitive primitive]. arg 0 x A. arg 1 y A. reflexivity.
  - eapply K; [apply (inv_alloc _ _ Ok); exact I|apply add_sub|apply add_new|]. intros r o H ->. pose proof (inv_low _ _ _ _ _ I _ _ H). lia.
Qed.
(** Lists *)
Lemma take_lst n v us : lst P v us -> length us <= n -> take_list n h v = Some us.
Proof.
  intros A. revert n. induction A as [|p x v xs H A IH]; intros n Hn; [destruct n; reflexivity|]. destruct n as [|n]; cbn in Hn; [lia|].
  cbn [take_list car]. rewrite (has _ _ H). cbn [ob cdr]. rewrite (has _ _ H). cbn [ob]. rewrite IH by lia. reflexivity.
Qed.
Lemma take_all v us : lst P v us -> take_list (length h) h v = Some us.
Proof. intros A. apply take_lst; [exact A|]. eapply inv_short; eassumption. Qed.
End Call.

(** A list that ends in some value *)
Inductive seg (P : frame) (last : val) : val -> list val -> Prop :=
| Seg_nil : seg P last last []
| Seg_cons p x v xs : P p (OPair x v) -> seg P last v xs -> seg P last (VPtr p) (x :: xs).
Lemma seg_up P P' last v xs : sub P P' -> seg P last v xs -> seg P' last v xs.
Proof. intros S. induction 1; econstructor; eauto. Qed.
Lemma seg_lst P last v xs ys : seg P last v xs -> lst P last ys -> lst P v (xs ++ ys).
Proof. intros S L. induction S; cbn [app]; [exact L|econstructor; eassumption]. Qed.
Lemma make_lst l g a xs last : forall h P, Inv l h g a P -> exists v h' P', make_list h xs last = (v, h') /\ Inv l h' g a P' /\ sub P P' /\ seg P' last v xs.
Proof.
  induction xs as [|x xs IH]; intros h P I.
  - exists last, h, P. split; [reflexivity|]. split; [exact I|]. split; [apply sub_refl|constructor].
  - destruct (IH h P I) as (v & h' & P' & E & I' & U & S). exists (VPtr (length h')), (h' ++ [OPair x v]), (add P' (length h') (OPair x v)).
    split; [cbn [make_list]; rewrite E; reflexivity|]. split; [apply (inv_alloc _ _ Ok), I'|]. split; [eapply sub_trans; [exact U|apply add_sub]|].
    econstructor; [apply add_new|eapply seg_up; [apply add_sub|exact S]].
Qed.
Lemma c_append l h g a P s e c d Q xs u v us : Inv l h g a P -> lib P -> lst P xs [u; v] -> lst P u us ->
  (forall w h' P', Inv l h' g a P' -> sub P P' -> seg P' v w us -> reaches (St (w :: s) e c d h' g a) Q) -> calls (VPtr 119) xs s e c d h g a Q.
Proof.
  intros I L A B K. destruct (make_lst l g a us v h P I) as (w & h' & P' & E & I' & U & S).
  eapply (c_prim l 16); [exact I|exact L|cbn; lia| |exact (K w h' P' I' U S)]. cbn [library_primitive].
  rewrite (lst_head _ _ _ Ok _ _ _ _ _ _ _ 0 u I A), (lst_head _ _ _ Ok _ _ _ _ _ _ _ 1 v I A) by reflexivity.
  rewrite (take_all l h g a P I u us B), E. reflexivity.
Qed.
Lemma c_reverse l h g a P s e c d Q xs u us : Inv l h g a P -> lib P -> lst P xs [u] -> lst P u us ->
  (forall w h' P', Inv l h' g a P' -> sub P P' -> lst P' w (rev us) -> reaches (St (w :: s) e c d h' g a) Q) -> calls (VPtr 120) xs s e c d h g a Q.
Proof.
  intros I L A B K. destruct (make_lst l g a (rev us) VNil h P I) as (w & h' & P' & E & I' & U & S).
  eapply (c_prim l 17); [exact I|exact L|cbn; lia| |apply (K w h' P' I' U)].
  - cbn [library_primitive]. rewrite (lst_head _ _ _ Ok _ _ _ _ _ _ _ 0 u I A) by reflexivity. rewrite (take_all l h g a P I u us B), E. reflexivity.
  - rewrite <- app_nil_r. eapply seg_lst; [exact S|constructor].
Qed.
(** (memq '() xs) *)
Lemma memq_lst l h g a P x : Inv l h g a P -> forall v us n, lst P v us -> length us < n ->
  exists w, memq_in h n x v = Some w /\ (w = f_ <-> ~ In x us).
Proof.
  intros I v us n A. revert n. induction A as [|p y v ys H A IH]; intros n Hn; (destruct n as [|n]; cbn in Hn; [lia|]); cbn [memq_in].
  - exists f_. split; [reflexivity|]. split; [intros _ []|reflexivity].
  - cbn [car cdr]. rewrite (inv_has _ _ Ok _ _ _ _ _ _ _ I H). cbn [ob].
    assert (Eq : val_eqb y x = true <-> y = x).
    { destruct y, x; cbn [val_eqb]; rewrite ?Nat.eqb_eq, ?Z.eqb_eq; split; congruence. }
    destruct (val_eqb y x).
    + exists (VPtr p). split; [reflexivity|]. split; [discriminate|]. intros N. exfalso. apply N. left. apply Eq. reflexivity.
    + destruct (IH n ltac:(lia)) as (w & E & F). exists w. split; [exact E|]. rewrite F. cbn [In].
      assert (y <> x) by (intros ->; destruct Eq as [_ Eq]; specialize (Eq eq_refl); discriminate). tauto.
Qed.
Lemma c_memq l h g a P s e c d Q xs x v us : Inv l h g a P -> lib P -> lst P xs [x; v] -> lst P v us ->
  (forall w, (w = f_ <-> ~ In x us) -> reaches (St (w :: s) e c d h g a) Q) -> calls (VPtr 121) xs s e c d h g a Q.
Proof.
  intros I L A B K. destruct (memq_lst l h g a P x I v us (S (length h)) B) as (w & E & F); [pose proof (inv_short _ _ _ _ _ _ _ I B); lia|].
  eapply (c_prim l 18); [exact I|exact L|cbn; lia| |exact (K w F)]. cbn [library_primitive].
  rewrite (lst_head _ _ _ Ok _ _ _ _ _ _ _ 0 x I A), (lst_head _ _ _ Ok _ _ _ _ _ _ _ 1 v I A) by reflexivity. rewrite E. reflexivity.
Qed.
(** (assq x bindings): cells are pairs of a key and a value *)
Inductive cells_at (P : frame) : list val -> list (nat * val * val) -> Prop :=
| Ce_nil : cells_at P [] []
| Ce_cons p k w vs B : P p (OPair k w) -> cells_at P vs B -> cells_at P (VPtr p :: vs) ((p, k, w) :: B).
Lemma cells_up P P' vs B : sub P P' -> cells_at P vs B -> cells_at P' vs B.
Proof. intros S. induction 1; constructor; auto. Qed.
Lemma cells_app P vs B ws C : cells_at P vs B -> cells_at P ws C -> cells_at P (vs ++ ws) (B ++ C).
Proof. induction 1; cbn [app]; [auto|constructor; auto]. Qed.
Fixpoint find_cell (x : val) (B : list (nat * val * val)) : option (nat * val) :=
  match B with [] => None | (p, k, w) :: B => if val_eqb k x then Some (p, w) else find_cell x B end.
Lemma c_assq l h g a P s e c d Q xs x v vs B : Inv l h g a P -> lib P -> lst P xs [x; v] -> lst P v vs -> cells_at P vs B ->
  reaches (St (match find_cell x B with Some (p, _) => VPtr p | None => f_ end :: s) e c d h g a) Q -> calls (VPtr 118) xs s e c d h g a Q.
Proof.
  intros I L A C D K. eapply (c_prim l 15); [exact I|exact L|cbn; lia| |exact K]. cbn [library_primitive].
  rewrite (lst_head _ _ _ Ok _ _ _ _ _ _ _ 0 x I A), (lst_head _ _ _ Ok _ _ _ _ _ _ _ 1 v I A) by reflexivity.
  rewrite (take_all l h g a P I v vs C). cbn [ob].
  assert (E : assq_in h x vs = Some (match find_cell x B with Some (p, _) => VPtr p | None => f_ end)).
  { clear K C. induction D as [|p k w vs B H D IH]; [reflexivity|]. cbn [assq_in car find_cell]. rewrite (inv_has _ _ Ok _ _ _ _ _ _ _ I H). destruct (val_eqb k x); [reflexivity|exact IH]. }
  rewrite E. reflexivity.
Qed.
(** set-car!, set-cdr! *)
Lemma c_set l k h g a P s e c d Q xs p x y z : k = 3 \/ k = 4 -> Inv l h g a P -> lib P -> lst P xs [VPtr p; z] -> P p (OPair x y) ->
  (forall h' P', Inv l h' g a P' -> (forall r o, P r o -> r <> p -> P' r o) -> P' p (if k =? 3 then OPair z y else OPair x z) -> reaches (St (z :: s) e c d h' g a) Q) ->
  calls (VPtr (103 + k)) xs s e c d h g a Q.
Proof.
  intros Hk I L A Hp K.
  assert (W : forall o', o' = (if k =? 3 then OPair z y else OPair x z) -> Inv l (update h p o') g a (put P p o')).
  { intros o' ->. destruct Hk as [-> | ->]; cbn [Nat.eqb]; eapply (inv_write _ _ Ok); eassumption. }
  eapply (c_prim l k) with (h' := update h p (if k =? 3 then OPair z y else OPair x z)) (v := z); [exact I|exact L|destruct Hk as [-> | ->]; cbn; lia| |].
  - destruct Hk as [-> | ->]; cbn [library_primitive primitive Nat.eqb];
      rewrite (lst_head _ _ _ Ok _ _ _ _ _ _ _ 0 _ I A), (lst_head _ _ _ Ok _ _ _ _ _ _ _ 1 _ I A) by reflexivity;
      cbn [set_car set_cdr]; rewrite (inv_has _ _ Ok _ _ _ _ _ _ _ I Hp); reflexivity.
  - eapply K; [apply W; reflexivity| |right; split; reflexivity]. intros r o Hr N. left. split; assumption.
Qed.
(** Registers *)
Lemma c_current l n i h g a P s e c d Q v : Inv l h g a P -> lib P -> nth_error library_heap n = Some (OClosure [ICurrent i; IReturn] VNil) -> nth_error a i = Some v ->
  (forall h', Inv l h' g a P -> reaches (St (v :: s) e c d h' g a) Q) -> calls (VPtr n) VNil s e c d h g a Q.
Proof.
  intros I L Hn A K. eapply (c_closure proc _ Inv own Ok); [exact I|apply L, Hn|]. intros r h' P' I' U _.
  eapply (r_current proc _ Inv); [exact I'|exact A|]. apply r_return. apply K. exact (inv_less _ _ Ok _ _ _ _ _ _ U I').
Qed.
Lemma c_install l n i h g a P s e c d Q xs v : Inv l h g a P -> lib P -> own i -> i < 4 -> nth_error library_heap n = Some (OClosure [ILoadRelative 0 0; IInstall i; IReturn] VNil) -> lst P xs [v] ->
  (forall h', Inv l h' g (update a i v) P -> reaches (St (v :: s) e c d h' g (update a i v)) Q) -> calls (VPtr n) xs s e c d h g a Q.
Proof.
  intros I L O Hi Hn A K. eapply (c_private proc _ Inv own Ok); [exact I|apply L, Hn|exact A|apply E_nil|]. intros r h' P' I' U E.
  eapply (r_relative proc _ Inv own Ok); [exact I'|exact E|reflexivity|reflexivity|].
  eapply (r_install proc _ Inv own Ok); [exact I'|exact O|exact Hi|]. intros J. apply r_return. apply K. exact (inv_less _ _ Ok _ _ _ _ _ _ U J).
Qed.
End Procedures.

(** ** Tactics: the invariant and what is known of the procedures is found in the context *)
Ltac with_ok k := match goal with Ok : invariant _ _ |- _ => k Ok end.
Ltac with_proc k := match goal with Proc : forall n h xs, n < length procedures -> _ |- _ => k Proc end.
Ltac inv := match goal with Ok : invariant _ ?Inv, I : ?Inv _ _ _ _ _ |- _ => exact I end.
Ltac args := solve [repeat (eapply L_cons; [eassumption|]); first [apply L_nil|eassumption]].
Ltac from_lib := match goal with L : lib _ |- _ => apply L; reflexivity end.
(** Facts about a smaller frame hold of a larger one; [lift_more] is extended later *)
Ltac lift_more P P' U := fail.
Ltac lift U :=
  match type of U with sub ?P ?P' =>
    repeat match goal with
           | F : lst P _ _ |- _ => apply (lst_up P P' _ _ U) in F
           | F : env P _ _ |- _ => apply (env_up P P' _ _ U) in F
           | F : seg P _ _ _ |- _ => apply (seg_up P P' _ _ _ U) in F
           | F : cells_at P _ _ |- _ => apply (cells_up P P' _ _ U) in F
           | F : lib P |- _ => apply (lib_up P P' U) in F
           | F : returns _ _ _ _ _ _ _ _ P _ |- _ => apply (returns_up _ _ _ _ _ _ _ _ P P' _ U) in F
           | F : P _ _ |- _ => apply U in F
           | F : sub ?P0 P |- _ => lazymatch F with U => fail | _ => apply (fun F => sub_trans P0 P P' F U) in F end
           | _ => lift_more P P' U
           end
  end.
Ltac drop_old I := repeat match goal with Ok : invariant _ ?Inv, J : ?Inv _ _ _ _ _ |- _ => lazymatch J with I => fail | _ => clear J end end.
Ltac renew I U := lift U; clear U; drop_old I.
(** The registers as a list of four values are kept opaque; known are hypotheses nth_error a i = Some v *)
Ltac grow := let h := fresh "h" in let P := fresh "P" in let I := fresh "I" in let U := fresh "U" in intros h P I U ?; renew I U.
Ltac one :=
  match goal with
  | |- reaches _ (St _ _ (ILoadConstant _ :: _) _ _ _ _) _ => apply r_const
  | |- reaches _ (St _ _ (IDrop :: _) _ _ _ _) _ => apply r_drop
  | |- reaches _ (St _ _ (ILoadAbsolute _ :: _) _ _ _ _) _ => with_ok ltac:(fun Ok => eapply (r_absolute _ _ _ _ Ok); [inv|reflexivity|])
  | |- reaches _ (St _ _ (ILoadRelative _ _ :: _) _ _ _ _) _ => with_ok ltac:(fun Ok => eapply (r_relative _ _ _ _ Ok); [inv|eassumption|reflexivity|reflexivity|])
  | |- reaches _ (St _ _ (ILoadVariadic _ _ :: _) _ _ _ _) _ => with_ok ltac:(fun Ok => eapply (r_variadic _ _ _ _ Ok); [inv|eassumption|reflexivity|cbn; lia|]; cbn [skipn]; let v := fresh "v" in intros v ?)
  | |- reaches _ (St _ _ (ICons :: _) _ _ _ _) _ => with_ok ltac:(fun Ok => eapply (r_cons _ _ _ _ Ok); [inv|]; let p := fresh "p" in intros p; grow)
  | |- reaches _ (St _ _ (ILoadClosure _ :: _) _ _ _ _) _ => with_ok ltac:(fun Ok => eapply (r_closure _ _ _ _ Ok); [inv|]; let p := fresh "p" in intros p; grow)
  | |- reaches _ (St _ _ (ISelect _ _ :: _) _ _ _ _) _ => apply r_select
  | |- reaches _ (St _ _ (ITailSelect _ _ :: _) _ _ _ _) _ => apply r_tail_select
  | |- reaches _ (St _ _ (IJoin :: _) _ _ _ _) _ => apply r_join
  | |- reaches _ (St _ _ (IReturn :: _) _ _ _ _) _ => apply r_return
  | |- reaches _ (St _ _ (ICall :: _) _ _ _ _) _ => apply r_call
  | |- reaches _ (St _ _ (ITailCall :: _) _ _ _ _) _ => apply r_tail_call
  | |- reaches _ (St _ _ (if val_eqb _ _ then _ else _) _ _ _ _) _ => progress cbn [val_eqb make_bool t_ f_ Z.eqb Nat.eqb]
  end.
(** Calls of a closure with a private argument list: from the frame, or of the library *)
Ltac entered := let p := fresh "e" in intros p; grow.
Ltac enter := with_ok ltac:(fun Ok => eapply (c_private _ _ _ _ Ok); [inv|eassumption|args|eassumption|]; entered).
Ltac enter_lib := with_ok ltac:(fun Ok => eapply (c_private _ _ _ _ Ok); [inv|from_lib|args|apply E_nil|]; entered).
(** Calls of procedures *)
Ltac prim :=
  with_ok ltac:(fun Ok => with_proc ltac:(fun Proc =>
  match goal with
  | |- calls _ (VPtr 103) _ _ _ _ _ _ _ _ _ => eapply (c_new _ Proc _ _ _ Ok); [inv|assumption|args|]; let p := fresh "p" in let h := fresh "h" in let P := fresh "P" in let I := fresh "I" in let U := fresh "U" in intros p h P I U ? _; renew I U
  | |- calls _ (VPtr 104) _ _ _ _ _ _ _ _ _ => first [eapply (c_car_pair _ Proc _ _ _ Ok); [inv|assumption|args|eassumption|] | eapply (c_car _ Proc _ _ _ Ok); [inv|assumption|args|eassumption|]]
  | |- calls _ (VPtr 105) _ _ _ _ _ _ _ _ _ => first [eapply (c_cdr_pair _ Proc _ _ _ Ok); [inv|assumption|args|eassumption|] | eapply (c_cdr _ Proc _ _ _ Ok); [inv|assumption|args|eassumption|]; let w := fresh "w" in intros w ?]
  | |- calls _ (VPtr 108) _ _ _ _ _ _ _ _ _ => eapply (c_eq _ Proc _ _ _ Ok); [inv|assumption|args|]
  | |- calls _ (VPtr 110) _ _ _ _ _ _ _ _ _ => first [eapply (c_null_lst _ Proc _ _ _ Ok); [inv|assumption|args|eassumption|] | eapply (c_null _ Proc _ _ _ Ok); [inv|assumption|args|]]
  | |- calls _ (VPtr 113) _ _ _ _ _ _ _ _ _ => eapply (c_caar _ Proc _ _ _ Ok); [inv|assumption|args|eassumption|eassumption|]
  | |- calls _ (VPtr 114) _ _ _ _ _ _ _ _ _ => eapply (c_cdar _ Proc _ _ _ Ok); [inv|assumption|args|eassumption|eassumption|]
  | |- calls _ (VPtr 120) _ _ _ _ _ _ _ _ _ => eapply (c_reverse _ Proc _ _ _ Ok); [inv|assumption|args|first [eassumption|args]|]; let w := fresh "w" in intros w; grow
  | |- calls _ (VPtr 119) _ _ _ _ _ _ _ _ _ => eapply (c_append _ Proc _ _ _ Ok); [inv|assumption|args|first [eassumption|args]|]; let w := fresh "w" in intros w; grow
  end)).
Ltac go := repeat (one; try prim).
(** A call of a procedure that returns, in the middle and at the end. The own continuation
    is Ret *)
Ltac call H :=
  eapply H; [inv|apply sub_refl|];
  let v := fresh "r" in let l := fresh "l" in let h := fresh "h" in let g := fresh "g" in let a := fresh "a" in let P := fresh "P" in let I := fresh "I" in let U := fresh "U" in let H := fresh "R" in
  intros v l h g a P I U H; renew I U.
Ltac last := match goal with Ret : accepts _ _ _ _ _ _ _ _ _ _ |- _ => eapply returns_last; [|inv| |exact Ret]; [|assumption] end.
Ltac finish := match goal with Ret : accepts _ _ _ _ _ _ _ _ _ _ |- _ => eapply Ret; [inv|assumption|] end.
(** ** Assignments: facts about other objects of the frame stay *)
Section Stores.
Variable proc : nat -> heap -> val -> presult.
Variable ghost : Type.
Variable Inv : ghost -> heap -> list gval -> list val -> frame -> Prop.
Variable own : nat -> Prop.
Hypothesis Ok : invariant own Inv.
(** To the second variable of the innermost frame *)
Lemma r_store_1 l x s e c d h g a P p q q' y z v e' Q : Inv l h g a P -> e = VPtr p -> P p (OPair (VPtr q) e') -> P q (OPair z (VPtr q')) -> P q' (OPair y v) ->
  (forall h' P', Inv l h' g a P' -> (forall r o, P r o -> r <> q' -> P' r o) -> P' q' (OPair x v) -> reaches proc (St (x :: s) e c d h' g a) Q) ->
  reaches proc (St (x :: s) e (IStoreRelative 0 1 :: c) d h g a) Q.
Proof.
  intros I -> Hp Hq Hq' K. eapply r_next.
  - cbn [step]. unfold store_relative, head. cbn [tail]. rewrite (car_in _ _ _ Ok _ _ _ _ _ _ _ _ I Hp). cbn [obind tail].
    rewrite (cdr_in _ _ _ Ok _ _ _ _ _ _ _ _ I Hq). cbn [obind set_car tail]. rewrite (inv_has _ _ Ok _ _ _ _ _ _ _ I Hq'). reflexivity.
  - apply K with (P' := put P q' (OPair x v)).
    + eapply (inv_write _ _ Ok); eassumption.
    + intros r o Hr N. left. split; assumption.
    + right. split; reflexivity.
Qed.
End Stores.
(** Keep : P r o -> r <> q -> P' r o, Hq : P q o'; I the invariant with P *)
Ltac kept I Hq Keep :=
  match type of I with _ _ _ _ _ ?P =>
    with_ok ltac:(fun Ok => repeat match goal with
      | F : P ?r ?o |- _ => lazymatch F with Hq => fail | _ =>
          apply (fun H => Keep r o H) in F; [|let E := fresh in intros E; subst r; pose proof (inv_unique _ _ _ Ok _ _ _ _ _ I _ _ _ F Hq); congruence] end
      end)
  end.
