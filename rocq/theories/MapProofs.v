(** What apply and map of library/meevax.ss do on the machine. *)
From Coq Require Import String ZArith List Bool Lia.
From Verif Require Import Machine Generator Evaluate LibraryCode Reach Symbolic.
Import ListNotations.

Definition code_of (name : string) : code :=
  match global name with
  | VPtr p => match nth_error library_heap p with Some (OClosure c _) => c | _ => [] end
  | _ => []
  end.
Definition map_body : code := Eval vm_compute in
  match code_of "map" with [_; _; _; _; _; ILoadClosure c; _] => c | _ => [] end.
Definition map1_code : code := Eval vm_compute in match map_body with ILoadClosure c :: _ => c | _ => [] end.
Definition mapn_code : code := Eval vm_compute in match map_body with _ :: _ :: _ :: ILoadClosure c :: _ => c | _ => [] end.

Lemma Forall2_impl {A B} (R S : A -> B -> Prop) l m : (forall x y, R x y -> S x y) -> Forall2 R l m -> Forall2 S l m.
Proof. intros H. induction 1; constructor; auto. Qed.

(** ** Specification: the i-th row is made of the i-th elements of all lists, up to the end
    of the shortest list *)
Fixpoint shortest (Ls : list (list val)) : nat :=
  match Ls with [] => 0 | [L] => length L | L :: Ls => Nat.min (length L) (shortest Ls) end.
Definition rows (Ls : list (list val)) : list (list val) := map (fun i => map (fun L => nth i L VNil) Ls) (seq 0 (shortest Ls)).
Lemma rows_end Ls : In [] Ls -> rows Ls = [].
Proof.
  intros H. unfold rows. replace (shortest Ls) with 0; [reflexivity|]. induction Ls as [|L Ls IH]; [reflexivity|]. destruct H as [-> |H].
  - destruct Ls; reflexivity.
  - specialize (IH H). destruct Ls; [destruct H|]. cbn [shortest]. cbn [shortest] in IH. rewrite <- IH. lia.
Qed.
Lemma rows_more Ls : Ls <> [] -> ~ In [] Ls -> rows Ls = map (hd VNil) Ls :: rows (map (@tl val) Ls).
Proof.
  intros N H. unfold rows. replace (shortest Ls) with (S (shortest (map (@tl val) Ls))).
  - cbn [seq map]. f_equal; [apply map_ext; intros [|x L]; reflexivity|]. rewrite <- seq_shift, map_map. apply map_ext. intros i. rewrite map_map. apply map_ext.
    intros [|x L]; [destruct i; reflexivity|reflexivity].
  - induction Ls as [|L Ls IH]; [congruence|]. destruct L as [|x L]; [exfalso; apply H; left; reflexivity|].
    destruct Ls as [|M Ls]; [reflexivity|]. specialize (IH ltac:(discriminate) (fun X => H (or_intror X))).
    cbn [map tl] in *. cbn [shortest] in *. rewrite <- IH. cbn [length]. lia.
Qed.

Lemma rows_one L : rows [L] = map (fun u => [u]) L.
Proof.
  induction L as [|x L IH]; [reflexivity|]. rewrite rows_more; [|discriminate|intros [E|[]]; discriminate E]. cbn [map hd tl]. rewrite IH. reflexivity.
Qed.

Section Map.
Variable proc : nat -> heap -> val -> presult.
Hypothesis Proc : forall n h xs, n < length procedures -> proc n h xs = library_primitive n h xs.
Variable ghost : Type.
Variable Inv : ghost -> heap -> list gval -> list val -> frame -> Prop.
Variable own : nat -> Prop.
Hypothesis Ok : invariant own Inv.
Variable aim : state -> Prop.
Notation returns := (returns proc ghost Inv aim).

(** f is called with each of the argument lists in turn, and then the results, the state of
    the program, the registers and any larger frame are as said *)
Fixpoint each (f : val) (rows : list (list val)) (l : ghost) (a : list val) (P : frame) (K : list val -> ghost -> list val -> frame -> Prop) : Prop :=
  match rows with
  | [] => forall P', sub P P' -> K [] l a P'
  | xs :: rows => forall P1 v, sub P P1 -> lst P1 v xs ->
      returns f v l a P1 (fun y l' a' P' => each f rows l' a' P' (fun ys => K (y :: ys)))
  end.
Lemma each_up f rows l a P P' K : sub P P' -> each f rows l a P K -> each f rows l a P' K.
Proof.
  intros U. destruct rows as [|xs rows]; cbn [each]; intros H.
  - intros P1 V. apply H. eapply sub_trans; eassumption.
  - intros P1 v V. apply H. eapply sub_trans; eassumption.
Qed.

Lemma each_mono f rows : forall l a P (K K' : list val -> ghost -> list val -> frame -> Prop), (forall ys l' a' P', K ys l' a' P' -> K' ys l' a' P') ->
  each f rows l a P K -> each f rows l a P K'.
Proof.
  induction rows as [|xs rows IH]; cbn [each]; intros l a P K K' M H; [intros P' U; apply M, H, U|].
  intros P1 v U V. eapply returns_mono; [|apply (H P1 v U V)]. intros y l' a' P' _. apply IH. intros ys l2 a2 P2. apply M.
Qed.

(** The inner procedure map, of one list *)
Definition map1 (P : frame) (p : nat) : Prop := exists e r z, P p (OClosure map1_code e) /\ env P e ((VPtr p :: z) :: r).
Lemma map1_up P P' p : sub P P' -> map1 P p -> map1 P' p.
Proof. intros U (e & r & z & H & E). exists e, r, z. split; [apply U, H|eapply env_up; eassumption]. Qed.
Lemma map1_runs us : forall l a P p f v xs acc accs (K : val -> ghost -> list val -> frame -> Prop), lib P -> map1 P p -> lst P v us -> lst P acc accs -> lst P xs [f; v; acc] ->
  each f (map (fun u => [u]) us) l a P (fun ys l' a' P' => forall P'' w, sub P' P'' -> lst P'' w (rev accs ++ ys) -> K w l' a' P'') ->
  returns (VPtr p) xs l a P (fun w l' a' P' => K w l' a' P').
Proof.
  induction us as [|u us IH]; intros l a P p f v xs acc accs K L M V A X H h g P' s e c d I U Ret; pose proof M as (e1 & r1 & z1 & M1 & M2).
  - lift U. cbn [map] in H. apply (each_up _ _ _ _ _ _ _ U) in H. clear U. pose proof (sub_refl P') as B. enter. unfold map1_code. go.
    finish. eapply H; [eassumption|apply sub_refl|]. rewrite app_nil_r. assumption.
  - lift U. cbn [map] in H. apply (each_up _ _ _ _ _ _ _ U) in H. apply (map1_up _ _ _ U) in M. clear U. pose proof (sub_refl P') as B. enter. unfold map1_code. go.
    apply (each_up _ _ _ _ _ _ _ B) in H. cbn [each] in H.
    match goal with P3 : _ (OPair u VNil) |- _ => specialize (H _ _ (sub_refl _) (L_cons _ _ _ _ _ P3 (L_nil _))) end.
    call H. pose proof (sub_refl P5) as B1. go.
    apply (map1_up _ _ _ B) in M. apply (each_up _ _ _ _ _ _ _ B1) in R.
    last. eapply (IH l0 a0 _ p f w (VPtr p9) (VPtr p5) (r :: accs)); [assumption|exact M|assumption|econstructor; eassumption|args|].
    eapply each_mono; [|exact R]. cbn beta. intros ys l' a' P2' G P2'' w' U' W'. apply (G P2'' w' U'). cbn [rev] in W'. rewrite <- app_assoc in W'. exact W'.
Qed.

(** ** car and cdr of several lists *)
Lemma each_car vs : forall xs l a P (K : list val -> ghost -> list val -> frame -> Prop), lib P ->
  Forall2 (fun v x => exists ys, lst P v (x :: ys)) vs xs -> (forall P', sub P P' -> K xs l a P') -> each (VPtr 104) (map (fun u => [u]) vs) l a P K.
Proof.
  induction vs as [|v vs IH]; intros xs l a P K L F H; inversion F as [|? x ? xs' (ys & V) F']; subst; cbn [map each]; [exact H|].
  intros P1 w U W h g P2 s e c d I U2 Ret. assert (U' : sub P P2) by (eapply sub_trans; eassumption). lift U2. lift U'.
  eapply (c_car proc Proc _ _ _ Ok); [inv|assumption|exact W|exact V|]. eapply Ret; [inv|apply sub_refl|].
  apply (IH xs'); [assumption| |].
  - eapply Forall2_impl; [|exact F']. intros y z (ys' & Y). exists ys'. eapply lst_up; [|exact Y]. assumption.
  - intros P' V'. apply H. eapply sub_trans; eassumption.
Qed.
Lemma each_cdr vs : forall Ls l a P (K : list val -> ghost -> list val -> frame -> Prop), lib P ->
  Forall2 (fun v ys => exists x, lst P v (x :: ys)) vs Ls -> (forall ws P', sub P P' -> Forall2 (lst P') ws Ls -> K ws l a P') -> each (VPtr 105) (map (fun u => [u]) vs) l a P K.
Proof.
  induction vs as [|v vs IH]; intros Ls l a P K L F H; inversion F as [|? ys ? Ls' (x & V) F']; subst; cbn [map each]; [intros P' U; apply H; [exact U|constructor]|].
  intros P1 w U W h g P2 s e c d I U2 Ret. assert (U' : sub P P2) by (eapply sub_trans; eassumption). lift U2. lift U'.
  eapply (c_cdr proc Proc _ _ _ Ok); [inv|assumption|exact W|exact V|]. intros u Hu. eapply Ret; [inv|apply sub_refl|].
  apply (IH Ls'); [assumption| |].
  - eapply Forall2_impl; [|exact F']. intros y z (ys' & Y). exists ys'. eapply lst_up; [|exact Y]. assumption.
  - intros ws P' V' G. apply H; [eapply sub_trans; eassumption|]. constructor; [eapply lst_up; eassumption|exact G].
Qed.

(** ** apply: the last argument is a list, before which the others are put *)
Lemma apply_two l h g a P xs f v s e c d Q : Inv l h g a P -> lib P -> lst P xs [f; v] ->
  (forall h' P', Inv l h' g a P' -> sub P P' -> calls proc f v s e c d h' g a Q) -> calls proc (VPtr 129) xs s e c d h g a Q.
Proof. intros I L A K. pose proof (sub_refl P) as B. enter_lib. go. eapply K; [inv|assumption]. Qed.
Lemma apply_many l h g a P xs f u us v vs s e c d Q : Inv l h g a P -> lib P -> lst P xs (f :: u :: us ++ [v]) -> lst P v vs ->
  (forall h' P' w, Inv l h' g a P' -> sub P P' -> lst P' w (u :: us ++ vs) -> calls proc f w s e c d h' g a Q) -> calls proc (VPtr 129) xs s e c d h g a Q.
Proof.
  intros I L A V K. pose proof (sub_refl P) as B.
  eapply (c_private proc _ Inv own Ok); [inv|from_lib|eassumption|apply E_nil|]; entered. go.
  replace (match us ++ [v] with [] => t_ | _ :: _ => f_ end) with f_ by (destruct us; reflexivity). go.
  match goal with W : lst _ ?w (rev (u :: us ++ [v])) |- _ => replace (rev (u :: us ++ [v])) with (v :: rev (u :: us)) in W by (cbn [rev]; rewrite rev_app_distr; reflexivity) end.
  enter. go. enter. go.
  match goal with S : seg _ v ?w ?ws |- _ => rewrite rev_involutive in S; pose proof (seg_lst _ _ _ _ _ S V) end.
  eapply K; [inv|assumption|eassumption].
Qed.

(** ** The inner procedure map*, of several lists *)
Definition mapn (P : frame) (p : nat) : Prop := exists e r p1, P p (OClosure mapn_code e) /\ env P e ([VPtr p1; VPtr p] :: r) /\ map1 P p1.
Lemma mapn_up P P' p : sub P P' -> mapn P p -> mapn P' p.
Proof. intros U (e & r & z & H & E & M). exists e, r, z. split; [apply U, H|]. split; [eapply env_up; eassumption|eapply map1_up; eassumption]. Qed.
Lemma heads_of P vs Ls : Forall2 (lst P) vs Ls -> ~ In VNil vs -> Forall2 (fun v x => exists ys, lst P v (x :: ys)) vs (map (hd VNil) Ls).
Proof.
  induction 1 as [|v L vs Ls V F IH]; intros N; cbn [map]; constructor.
  - destruct V as [|p x v ys]; [exfalso; apply N; left; reflexivity|]. exists ys. econstructor; eassumption.
  - apply IH. intros H. apply N. right. exact H.
Qed.
Lemma tails_of P vs Ls : Forall2 (lst P) vs Ls -> ~ In VNil vs -> Forall2 (fun v ys => exists x, lst P v (x :: ys)) vs (map (@tl val) Ls).
Proof.
  induction 1 as [|v L vs Ls V F IH]; intros N; cbn [map]; constructor.
  - destruct V as [|p x v ys]; [exfalso; apply N; left; reflexivity|]. exists x. econstructor; eassumption.
  - apply IH. intros H. apply N. right. exact H.
Qed.
Lemma nil_in P vs Ls : Forall2 (lst P) vs Ls -> In VNil vs <-> In [] Ls.
Proof.
  induction 1 as [|v L vs Ls V F IH]; [reflexivity|]. cbn [In]. rewrite IH. destruct V as [|? ? ? ? ? ?]; split; intros [E|E]; auto; discriminate E.
Qed.
Lemma lsts_up P P' vs Ls : sub P P' -> Forall2 (lst P) vs Ls -> Forall2 (lst P') vs Ls.
Proof. intros U. apply Forall2_impl. intros x y. apply lst_up, U. Qed.
Ltac lift_more P P' U ::=
  match goal with
  | F : Forall2 (lst P) _ _ |- _ => apply (lsts_up P P' _ _ U) in F
  | F : map1 P _ |- _ => apply (map1_up P P' _ U) in F
  | F : mapn P _ |- _ => apply (mapn_up P P' _ U) in F
  | F : each _ _ _ _ P _ |- _ => apply (each_up _ _ _ _ P P' _ U) in F
  end.
Lemma mapn_runs n : forall Ls l a P p f v vs xs acc accs (K : val -> ghost -> list val -> frame -> Prop), length (rows Ls) = n -> Ls <> [] ->
  lib P -> mapn P p -> lst P v vs -> Forall2 (lst P) vs Ls -> lst P acc accs -> lst P xs [f; v; acc] ->
  each f (rows Ls) l a P (fun ys l' a' P' => forall P'' w, sub P' P'' -> lst P'' w (rev accs ++ ys) -> K w l' a' P'') ->
  returns (VPtr p) xs l a P (fun w l' a' P' => K w l' a' P').
Proof.
  induction n as [|n IH]; intros Ls l a P p f v vs xs acc accs K N NE L M V F A X H h g P' s e c d I U Ret;
    lift U; clear U; pose proof (sub_refl P') as B; pose proof M as (e1 & r1 & p1 & M1 & M2 & M3); enter; unfold mapn_code; go.
  - eapply (c_memq proc Proc _ _ _ Ok); [inv|assumption|args|eassumption|]. intros w W.
    assert (In VNil vs) as Hin.
    { apply (nil_in _ _ _ F). destruct (in_dec (list_eq_dec (fun x y : val => ltac:(decide equality; [apply Z.eq_dec|apply Nat.eq_dec]) : {x = y} + {x <> y})) [] Ls) as [Y|Y]; [exact Y|].
      rewrite rows_more in N by assumption. discriminate N. }
    assert (val_eqb w f_ = false) as Wf.
    { destruct (val_eqb w f_) eqn:E; [|reflexivity]. exfalso. apply W; [|exact Hin]. destruct w; try discriminate E. unfold f_. f_equal. apply Z.eqb_eq, E. }
    one. rewrite Wf. go. finish. apply length_zero_iff_nil in N. rewrite N in H. cbn [each] in H. eapply H; [apply sub_refl|apply sub_refl|]. rewrite app_nil_r. assumption.
  - eapply (c_memq proc Proc _ _ _ Ok); [inv|assumption|args|eassumption|]. intros w W.
    assert (~ In VNil vs) as Hin by (intros Y; apply (nil_in _ _ _ F) in Y; rewrite (rows_end _ Y) in N; discriminate N).
    assert (w = f_) as -> by (apply W; exact Hin).
    go. rewrite rows_more in H; [|exact NE|intros Y; apply Hin, (proj2 (nil_in _ _ _ F)), Y].
    assert (RC : forall P1, sub P6 P1 -> returns (VPtr p1) (VPtr p6) l a P1 (fun w l' a' P'' => l' = l /\ a' = a /\ lst P'' w (map (hd VNil) Ls))).
    { intros P1' U1. lift U1. eapply (map1_runs vs) with (acc := VNil) (accs := []); [assumption|eassumption|eassumption|constructor|args|].
      eapply each_car; [assumption|apply heads_of; eassumption|]. intros P2' U2 P3' w' U3 W'. auto. }
    specialize (RC _ (sub_refl _)). call RC. destruct R as (-> & -> & R). cbn [each] in H.
    match goal with R : lst ?P' _ (map (hd VNil) Ls) |- _ => specialize (H P' _ (sub_refl _) R) end.
    go. eapply apply_two; [inv|assumption|args|]. intros h8' P8' I8' U8'. renew I8' U8'. call H. clear H RC. go.
    match goal with |- calls _ _ (VPtr ?q) _ _ _ _ _ _ ?a1 _ => match goal with I1 : Inv ?l1 _ _ a1 ?P1 |- _ =>
      assert (RD : returns (VPtr p1) (VPtr q) l1 a1 P1 (fun w l' a' P'' => l' = l1 /\ a' = a1 /\ exists ws, lst P'' w ws /\ Forall2 (lst P'') ws (map (@tl val) Ls))) end end.
    { eapply (map1_runs vs) with (acc := VNil) (accs := []); [assumption|eassumption|eassumption|constructor|args|].
      eapply each_cdr; [assumption|apply tails_of; eassumption|]. intros ws P2' U2 W2 P3' w' U3 W'. split; [reflexivity|]. split; [reflexivity|]. exists ws. split; [exact W'|].
      eapply lsts_up; eassumption. }
    call RD. clear RD. destruct R1 as (-> & -> & ws & R1 & R2). go. last.
    eapply (IH (map (@tl val) Ls)) with (accs := r0 :: accs);
      [ rewrite rows_more in N; [cbn [length] in N; lia|exact NE|intros Y; apply Hin, (proj2 (nil_in _ _ _ F)), Y]
      | destruct Ls; [congruence|discriminate] | assumption | eassumption | eassumption | eassumption | econstructor; eassumption | args | ].
    eapply each_mono; [|eassumption]. cbn beta. intros ys l' a' P2' G P2'' w' U' W'. apply (G P2'' w' U'). cbn [rev] in W'. rewrite <- app_assoc in W'. exact W'.
Qed.

(** ** map *)
Lemma map_runs l a P f v vs Ls xs (K : val -> ghost -> list val -> frame -> Prop) : lib P -> lst P xs (f :: v :: vs) -> Forall2 (lst P) (v :: vs) Ls ->
  each f (rows Ls) l a P (fun ys l' a' P' => forall P'' w, sub P' P'' -> lst P'' w ys -> K w l' a' P'') ->
  returns (VPtr 130) xs l a P (fun w l' a' P' => K w l' a' P').
Proof.
  intros L X F H h g P' s e c d I U Ret. lift U. clear U. pose proof (sub_refl P') as B.
  eapply (c_private proc _ Inv own Ok); [inv|from_lib|eassumption|apply E_nil|]; entered. do 2 one.
  eapply (r_cons_new proc _ Inv own Ok); [inv|]. intros q0 hq0 Pq0 Iq0 Uq0 Hq0 New0. drop_old Iq0. one.
  eapply (r_cons_new proc _ Inv own Ok); [inv|]. intros q1 hq1 Pq1 Iq1 Uq1 Hq1 New1'.
  assert (New1 : forall r o, P0 r o -> r <> q1) by (intros r o Hr; apply (New1' r o), Uq0, Hr). clear New1'. renew Iq1 Uq1.
  one. one. eapply (c_closure proc _ Inv own Ok); [inv|eassumption|]. intros r hr Pr Ir Ur Hr. renew Ir Ur. one.
  (* set! map *)
  match goal with J : Inv _ _ _ _ ?P', H : ?P' ?p (OClosure _ (VPtr r)) |- _ => rename J into Is; rename p into pw; rename H into Hw end.
  eapply (r_store proc _ Inv own Ok); [exact Is|reflexivity|exact Hr|exact Hq1|]. intros hs P3 I3 Keep Hq3.
  assert (U3 : sub P0 P3) by (intros x o Hx; apply Keep; [apply Uq0, Hx|eapply New1, Hx]).
  kept Is Hq1 Keep. clear Keep Hq1 Is Uq0. one. one.
  (* set! map* *)
  match goal with J : Inv _ _ _ _ ?P', H : ?P' ?p (OClosure _ (VPtr r)) |- _ => lazymatch H with Hw => fail | _ => rename J into Is; rename p into pn; rename H into Hn end end.
  eapply (r_store_1 proc _ Inv own Ok); [exact Is|reflexivity|exact Hr|exact Hq3|exact Hq0|]. intros ht P4' I4 Keep Hq4.
  assert (U4 : sub P0 P4') by (intros x o Hx; apply Keep; [apply U3, Hx|eapply New0, Hx]).
  kept Is Hq0 Keep. clear Keep Hq0 Is U3.
  lift U4. clear U4 New0 New1.
  assert (E : env P4' (VPtr r) [[VPtr pw; VPtr pn]; f :: v :: vs]) by (econstructor; [exact Hr|args|eassumption]).
  assert (M1 : map1 P4' pw) by (eexists _, _, _; split; eassumption).
  assert (Mn : mapn P4' pn) by (eexists _, _, _; split; [eassumption|split; eassumption]).
  clear Hr Hq3 Hq4 Hw Hn. go. destruct vs as [|v' vs]; go; last.
  - inversion F as [|? L1 ? ? F1 F2]; subst. inversion F2; subst. rewrite rows_one in H.
    eapply (map1_runs L1) with (accs := []); [assumption|eassumption|eassumption|constructor|args|exact H].
  - eapply (mapn_runs _ Ls) with (accs := []); [reflexivity|inversion F; discriminate|assumption|eassumption|eassumption|eassumption|constructor|args|exact H].
Qed.
End Map.
