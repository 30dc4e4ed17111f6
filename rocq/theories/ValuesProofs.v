(** What for-each (library/r4rs.ss), exit (library/meevax.ss), values and call-with-values
    (library/r5rs.ss) do on the machine. *)
From Coq Require Import String ZArith List Bool Lia.
From Verif Require Import Machine Generator Evaluate LibraryCode Reach Symbolic SharedMemory ContinuationProofs MapProofs HandlerProofs.
Import ListNotations.

(** ** letrec *)
Section Letrec.
Variable proc : nat -> heap -> val -> presult.
Variable ghost : Type.
Variable Inv : ghost -> heap -> list gval -> list val -> frame -> Prop.
Variable own : nat -> Prop.
Hypothesis Ok : invariant own Inv.
Lemma r_dummy l s e c d h g a P Q : Inv l h g a P ->
  (forall p h' P', Inv l h' g a P' -> sub P P' -> P' p (OPair VNil e) -> (forall r o, P r o -> r <> p) -> reaches proc (St s (VPtr p) c d h' g a) Q) ->
  reaches proc (St s e (IDummy :: c) d h g a) Q.
Proof.
  intros I K. eapply r_next; [reflexivity|]. eapply K; [apply (inv_alloc _ _ Ok); exact I|apply add_sub|apply add_new|].
  intros r o H ->. apply (inv_has _ _ Ok _ _ _ _ _ _ _ I) in H. assert (length h < length h) by (apply nth_error_Some; congruence). lia.
Qed.
Lemma r_tail_letrec l q xs s e c c' d h g a P p x e' Q : Inv l h g a P -> P q (OClosure c' (VPtr p)) -> P p (OPair x e') ->
  (forall h' P', Inv l h' g a P' -> (forall r o, P r o -> r <> p -> P' r o) -> P' p (OPair xs e') -> reaches proc (St [] (VPtr p) c' d h' g a) Q) ->
  reaches proc (St (VPtr q :: xs :: s) e (ITailLetrec :: c) d h g a) Q.
Proof.
  intros I Hq Hp K. eapply r_next.
  - cbn [step callee]. rewrite (inv_has _ _ Ok _ _ _ _ _ _ _ I Hq). cbn [set_car]. rewrite (inv_has _ _ Ok _ _ _ _ _ _ _ I Hp). reflexivity.
  - apply K with (P' := put P p (OPair xs e')).
    + eapply (inv_write _ _ Ok); eassumption.
    + intros r o Hr N. left. split; assumption.
    + right. split; reflexivity.
Qed.
End Letrec.

(** The code of the procedure for-each of the letrec of for-each, and of that of exit *)
Definition each_code : code := Eval vm_compute in
  match code_of "exit" with _ :: _ :: ILoadClosure c :: _ => c | _ => [] end.
Lemma each_code_of : match code_of "for-each" with [_; _; _; _; _; ITailSelect (_ :: _ :: ILoadClosure c :: _) _] => c | _ => [] end = each_code.
Proof. reflexivity. Qed.
(** The closure made by the letrec *)
Definition looping (P : frame) (p : nat) : Prop := exists e r, P p (OClosure each_code e) /\ env P e ([VPtr p] :: r).
Lemma looping_up P P' p : sub P P' -> looping P p -> looping P' p.
Proof. intros S (e & r & H & E). exists e, r. split; [apply S, H|eapply env_up; eassumption]. Qed.

Section ForEach.
Variable proc : nat -> heap -> val -> presult.
Hypothesis Proc : forall n h xs, n < length procedures -> proc n h xs = library_primitive n h xs.
Variable ghost : Type.
Variable Inv : ghost -> heap -> list gval -> list val -> frame -> Prop.
Variable own : nat -> Prop.
Hypothesis Ok : invariant own Inv.
Variable aim : state -> Prop.
Notation returns := (returns proc ghost Inv aim).
Notation calls := (calls proc).
Notation each := (each proc ghost Inv aim).

Ltac lift_more P P' U ::=
  match goal with
  | F : Forall2 (lst P) _ _ |- _ => apply (lsts_up P P' _ _ U) in F
  | F : looping P _ |- _ => apply (looping_up P P' _ U) in F
  | F : chain P _ _ |- _ => apply (chain_up P P' _ _ U) in F
  | F : MapProofs.each _ _ _ _ _ _ _ _ P _ |- _ => apply (each_up _ _ _ _ _ _ _ _ P P' _ U) in F
  end.
Lemma loop_runs us : forall l a P p f v xs (K : ghost -> list val -> frame -> Prop), lib P -> looping P p -> lst P v us -> lst P xs [f; v] ->
  each f (map (fun u => [u]) us) l a P (fun _ l' a' P' => K l' a' P') ->
  returns (VPtr p) xs l a P (fun _ l' a' P' => K l' a' P').
Proof.
  induction us as [|u us IH]; intros l a P p f v xs K L M V X H h g P' s e c d I U Ret; lift U; clear U; pose proof M as (e1 & r1 & M1 & M2); pose proof (sub_refl P') as B.
  - enter. unfold each_code. go. eapply (c_pair_lst _ Proc _ _ _ Ok); [inv|assumption|args|eassumption|]. go.
    finish. cbn [map MapProofs.each] in H. apply H, sub_refl.
  - enter. unfold each_code. go. eapply (c_pair_lst _ Proc _ _ _ Ok); [inv|assumption|args|eassumption|]. go.
    cbn [map MapProofs.each] in H.
    match goal with J : Inv _ _ _ _ ?P1, P3 : ?P1 ?q (OPair u VNil) |- _ => specialize (H P1 (VPtr q) (sub_refl _) (L_cons _ _ _ _ _ P3 (L_nil _))) end.
    call H. go.
    last. eapply (IH l0 a0 _ p f w); [assumption|assumption|assumption|args|exact R].
Qed.
Lemma each_stable f rows : forall l a P (K : list val -> ghost -> list val -> frame -> Prop), each f rows l a P K ->
  each f rows l a P (fun ys l' a' P' => forall P'', sub P' P'' -> K ys l' a' P'').
Proof.
  induction rows as [|xs rows IH]; cbn [MapProofs.each]; intros l a P K H; [intros P1 U1 P2 U2; apply H; eapply sub_trans; eassumption|].
  intros P1 v U V. eapply returns_mono; [|apply (H P1 v U V)]. intros y l' a' P' _ N. apply IH, N.
Qed.
(** The letrec around it: what is left of the frame, and the closure *)
Lemma letrec_runs l s e c c1 d h g a P fs Q : Inv l h g a P -> env P e fs ->
  (forall p pe h' P', Inv l h' g a P' -> sub P P' -> looping P' p -> env P' (VPtr pe) ([VPtr p] :: fs) -> reaches proc (St [] (VPtr pe) c1 d h' g a) Q) ->
  reaches proc (St s e (IDummy :: ILoadConstant VNil :: ILoadClosure each_code :: ICons :: ILoadClosure c1 :: ITailLetrec :: c) d h g a) Q.
Proof.
  intros I E K. pose proof (sub_refl P) as B.
  eapply (r_dummy proc _ Inv own Ok); [inv|]. intros pe h1 P1 I1 U1 H1 F1. drop_old I1.
  one. eapply (r_closure proc _ Inv own Ok); [exact I1|]. intros p h2 P2 I2 U2 H2.
  eapply (r_cons proc _ Inv own Ok); [exact I2|]. intros q h3 P3 I3 U3 H3.
  eapply (r_closure proc _ Inv own Ok); [exact I3|]. intros p' h4 P4 I4 U4 H4.
  apply U2, U3, U4 in H1. apply U3, U4 in H2. apply U4 in H3.
  eapply (r_tail_letrec proc _ Inv own Ok); [exact I4|exact H4|exact H1|]. intros h5 P5 I5 Keep H5.
  assert (U : sub P P5) by (intros r o Hr; apply Keep; [apply U4, U3, U2, U1, Hr|eapply F1, Hr]).
  assert (E5 : env P5 (VPtr pe) ([VPtr p] :: fs)).
  { econstructor; [exact H5| |eapply env_up; eassumption]. econstructor; [|constructor]. apply Keep; [exact H3|].
    intros ->. pose proof (inv_unique _ _ _ Ok _ _ _ _ _ I4 _ _ _ H3 H1). congruence. }
  apply (K p pe h5 P5 I5 U); [|exact E5]. exists (VPtr pe), fs. split; [|exact E5]. apply Keep; [exact H2|].
  intros ->. pose proof (inv_unique _ _ _ Ok _ _ _ _ _ I4 _ _ _ H2 H1). congruence.
Qed.

(** (for-each f x y ...) *)
Lemma for_each_runs l a P f v vs Ls xs (K : ghost -> list val -> frame -> Prop) : lib P -> lst P xs (f :: v :: vs) -> Forall2 (lst P) (v :: vs) Ls ->
  each f (rows Ls) l a P (fun _ l' a' P' => K l' a' P') ->
  returns (VPtr 148) xs l a P (fun _ l' a' P' => K l' a' P').
Proof.
  intros L X F H h g P' s e c d I U Ret. lift U. clear U. pose proof (sub_refl P') as B.
  eapply (c_private proc _ Inv own Ok); [inv|from_lib|eassumption|apply E_nil|]; entered. go. destruct vs as [|v' vs].
  - go. inversion F as [|? L1 ? ? F1 F2]; subst. inversion F2; subst. rewrite rows_one in H.
    eapply letrec_runs; [inv|eassumption|]. intros pl pe h' P5 I5 U5 W5 E5. renew I5 U5. go. last.
    eapply (loop_runs L1); [assumption|assumption|eassumption|args|exact H].
  - go. eapply (apply_many proc Proc _ _ _ Ok) with (us := [v]); [inv|assumption|args|eassumption|]. intros h7 P7 w7 I7 U7 W7. renew I7 U7.
    cbn [app] in W7.
    assert (M : returns (VPtr 130) w7 l a P7 (fun _ l' a' P' => K l' a' P')).
    { eapply (map_runs proc Proc _ _ _ Ok) with (Ls := Ls) (K := fun _ l' a' P' => K l' a' P'); [assumption|exact W7|assumption|].
      eapply each_mono; [|apply each_stable, H]. intros ys l' a' P2' H2' P3' w U3 W3. apply H2', U3. }
    call M. go. finish. assumption.
Qed.

(** ** exit *)
(** The after thunks of the extents are called in turn *)
Fixpoint leaves (F : list extent) (l : ghost) (a : list val) (P : frame) (K : ghost -> list val -> frame -> Prop) : Prop :=
  match F with
  | [] => forall P', sub P P' -> K l a P'
  | x :: F => returns (after x) VNil l a P (fun _ l' a' P' => leaves F l' a' P' K)
  end.
Lemma leaves_up F l a P P' K : sub P P' -> leaves F l a P K -> leaves F l a P' K.
Proof. intros U. destruct F as [|x F]; cbn [leaves]; [intros H P2 V; apply H; eapply sub_trans; eassumption|apply returns_up, U]. Qed.
(** The pairs of the thunks *)
Lemma chain_lst P X F : chain P X F -> exists us, lst P X us /\ Forall2 (fun u x => exists q, u = VPtr q /\ P q (OPair (before x) (after x))) us F.
Proof.
  induction 1 as [|p q b a v F H1 H2 C (us & L & D)]; [exists []; split; constructor|].
  exists (VPtr q :: us). split; [econstructor; eassumption|]. constructor; [|exact D]. exists q. auto.
Qed.
Definition leave_code : code := Eval vm_compute in
  match code_of "exit" with [_; _; _; _; ILoadClosure (_ :: _ :: _ :: _ :: _ :: ILoadClosure c :: _); _] => c | _ => [] end.
Lemma each_leaves F : forall us l a P q e r K, lib P -> P q (OClosure leave_code e) -> env P e r ->
  Forall2 (fun u x => exists q, u = VPtr q /\ P q (OPair (before x) (after x))) us F ->
  leaves F l a P K -> each (VPtr q) (map (fun u => [u]) us) l a P (fun _ => K).
Proof.
  induction F as [|x F IH]; intros us l a P q e r K L Hq E D H; inversion D as [|u ? us' ? (p & -> & Hp) D']; subst; cbn [map MapProofs.each]; [exact H|].
  intros P1 w U1 W h g P2 s e0 c d I U2 Ret. cbn [leaves] in H. assert (U : sub P P2) by (eapply sub_trans; eassumption).
  assert (D2 : forall P3, sub P2 P3 -> Forall2 (fun u x => exists q, u = VPtr q /\ P3 q (OPair (before x) (after x))) us' F).
  { intros P3 U3. eapply Forall2_impl; [|exact D']. intros u y (p' & -> & Hp'). exists p'. split; [reflexivity|apply U3, U, Hp']. }
  lift U2. clear U2. lift U. clear U U1. pose proof (sub_refl P2) as B. enter. unfold leave_code. go. last.
  eapply returns_mono; [|exact H]. cbn beta. intros y l' a' P' U' N.
  eapply IH; [eapply lib_up; eassumption|apply U'; eassumption|eapply env_up; eassumption|apply D2|exact N]. eapply sub_trans; eassumption.
Qed.
(** The state in which emergency-exit is called with these arguments *)
Definition ends (us : list val) (l : ghost) (a : list val) (P : frame) : Prop :=
  forall h g P' v s e c d, Inv l h g a P' -> sub P P' -> lst P' v us -> calls (VPtr 123) v s e c d h g a aim.
Lemma exit_runs l h g a P X F xs us s e c d : Inv l h g a P -> lib P -> lst P xs us -> nth_error a 0 = Some X -> chain P X F ->
  leaves F l a P (ends us) -> calls (VPtr 147) xs s e c d h g a aim.
Proof.
  intros I L A N C H. pose proof (sub_refl P) as B.
  eapply (c_private proc _ Inv own Ok); [inv|from_lib|eassumption|apply E_nil|]; entered.
  eapply letrec_runs; [inv|eassumption|]. intros pl pe h' P5 I5 U5 W5 E5. renew I5 U5. go.
  eapply (current_extents proc _ Inv own Ok); [inv|assumption|eassumption|]. intros hc Ic. drop_old Ic. go.
  destruct (chain_lst _ _ _ C) as (vs & V & D).
  match goal with |- calls _ ?ys _ _ _ _ _ _ _ _ => match goal with J : Inv _ _ _ _ ?P1 |- _ =>
    assert (M : returns (VPtr pl) ys l a P1 (fun _ l' a' P' => ends us l' a' P')) end end.
  { eapply (loop_runs vs); [assumption|assumption|exact V|args|]. eapply each_leaves; [assumption|eassumption|eassumption|exact D|].
    eapply leaves_up; [exact B|exact H]. }
  call M. go. eapply R; [inv|apply sub_refl|eassumption].
Qed.
End ForEach.

(** ** values *)
Section Values.
Variable proc : nat -> heap -> val -> presult.
Hypothesis Proc : forall n h xs, n < length procedures -> proc n h xs = library_primitive n h xs.
Variable ghost0 : Type.
Variable Inv0 : ghost0 -> heap -> list gval -> list val -> frame -> Prop.
Variable own : nat -> Prop.
Hypothesis Ok0 : invariant own Inv0.
Variable aim : state -> Prop.
Notation ghost := (ghost0 * memory)%type.
Notation Inv := (shared Inv0).
Let Ok : invariant own Inv := shared_invariant _ _ _ Ok0.
Notation returns := (returns proc ghost Inv aim).
Notation reaches := (reaches proc).
Notation calls := (calls proc).

(** A pair with the tag of values, and the list of the values *)
Definition several (P : frame) (w : val) (us : list val) : Prop := exists p v, w = VPtr p /\ P p (OPair (VPtr 149) v) /\ lst P v us.
Lemma several_up P P' w us : sub P P' -> several P w us -> several P' w us.
Proof. intros U (p & v & E & H & L). exists p, v. split; [exact E|]. split; [apply U, H|eapply lst_up; eassumption]. Qed.
(** Anything but a pair with the tag: of the frame or of the memory *)
Definition untagged (P : frame) (M : memory) (w : val) : Prop :=
  match w with
  | VPtr p => (exists o, P p o /\ match o with OPair x _ => x <> VPtr 149 | _ => True end) \/ (exists x y, M p = Some (x, y) /\ x <> VPtr 149)
  | _ => True
  end.
Lemma untagged_up P P' M w : sub P P' -> untagged P M w -> untagged P' M w.
Proof. intros U. destruct w; cbn [untagged]; auto. intros [(o & H & T)|H]; [left; exists o; auto|right; exact H]. Qed.
Lemma values_runs l M a P xs us (R : val -> ghost -> list val -> frame -> Prop) : lib P -> lst P xs us ->
  (forall w P', sub P P' -> match us with [x] => w = x | _ => several P' w us end -> R w (l, M) a P') ->
  returns (VPtr 150) xs (l, M) a P R.
Proof.
  intros L A K h g P' s e c d I U Ret. assert (K' : forall w P2, sub P' P2 -> match us with [x] => w = x | _ => several P2 w us end -> R w (l, M) a P2).
  { intros w P2 U2. apply K. eapply sub_trans; eassumption. }
  clear K. lift U. clear U. pose proof (sub_refl P') as B.
  eapply (c_private proc _ Inv own Ok); [inv|from_lib|eassumption|apply E_nil|]; entered. go.
  eapply (c_pair_lst _ Proc _ _ _ Ok); [inv|assumption|args|eassumption|]. cbn [skipn]. destruct us as [|x [|y us]].
  - go. finish. apply K'; [assumption|]. eexists _, _. split; [reflexivity|]. split; [eassumption|assumption].
  - go. finish. apply K'; [assumption|reflexivity].
  - go. finish. apply K'; [assumption|]. eexists _, _. split; [reflexivity|]. split; [eassumption|assumption].
Qed.
(** What the consumer is called with *)
Definition delivered (P : frame) (M : memory) (w : val) (us : list val) : Prop := several P w us \/ (us = [w] /\ untagged P M w).
Definition is_values_code : code := Eval vm_compute in
  match code_of "call-with-values" with _ :: _ :: _ :: ILoadClosure (ILoadClosure c :: _) :: _ => c | _ => [] end.
Ltac lift_more P P' U ::=
  match goal with
  | F : several P _ _ |- _ => apply (several_up P P' _ _ U) in F
  | F : untagged P _ _ |- _ => apply (untagged_up P P' _ _ U) in F
  end.
Lemma other_tag y : y <> VPtr 149 -> val_eqb (VPtr 149) y = false.
Proof. intros T. destruct y as [|i|q]; try reflexivity. cbn [val_eqb]. destruct (Nat.eqb_spec 149 q) as [<-|]; [contradiction T; reflexivity|reflexivity]. Qed.
(** (values? x) *)
Lemma is_values l M a P p e r x w xs : lib P -> P p (OClosure is_values_code e) -> env P e r -> lst P xs [w] ->
  (x = t_ /\ (exists us, several P w us) \/ x = f_ /\ untagged P M w) ->
  returns (VPtr p) xs (l, M) a P (fun v lm a' _ => v = x /\ lm = (l, M) /\ a' = a).
Proof.
  intros L H E A D h g P' s e0 c d I U Ret.
  assert (D' : x = t_ /\ (exists us, several P' w us) \/ x = f_ /\ untagged P' M w).
  { destruct D as [(-> & us & D)|(-> & D)]; [left; split; [reflexivity|]; exists us; eapply several_up; eassumption|right; split; [reflexivity|eapply untagged_up; eassumption]]. }
  clear D. lift U. clear U. pose proof (sub_refl P') as B. destruct D' as [(-> & us & q & v & -> & Hq & _)|(-> & D)].
  - enter. unfold is_values_code. go. eapply (c_pair _ Proc _ _ _ Ok); [inv|assumption|args|]. cbn [callee].
    match goal with J : Inv _ _ _ _ _ |- _ => rewrite (inv_has _ _ Ok _ _ _ _ _ _ _ J Hq) end. go. finish. auto.
  - enter. unfold is_values_code. go. eapply (c_pair _ Proc _ _ _ Ok); [inv|assumption|args|].
    destruct w as [|i|q]; cbn [callee untagged] in *; try (go; finish; auto; fail).
    destruct D as [(o & Ho & T)|(y & z & Hy & T)].
    + match goal with J : Inv _ _ _ _ _ |- _ => rewrite (inv_has _ _ Ok _ _ _ _ _ _ _ J Ho) end.
      destruct o as [y z| | | |]; try (go; finish; auto; fail). go.
      rewrite (other_tag y T). finish. auto.
    + match goal with J : Inv _ _ _ _ _ |- _ => rewrite (shared_has _ _ _ Ok0 _ _ _ _ _ _ _ _ _ J Hy) end. go.
      eapply (m_car _ Proc _ _ _ Ok0); [inv|assumption|args|exact Hy|]. go.
      rewrite (other_tag y T). finish. auto.
Qed.
(** (call-with-values produce consume) *)
Lemma call_with_values_runs l M a P xs f k (R : val -> ghost -> list val -> frame -> Prop) : lib P -> lst P xs [f; k] ->
  returns f VNil (l, M) a P (fun w lm a' P' => exists us, delivered P' (snd lm) w us /\
    forall P2 v, sub P' P2 -> lst P2 v us -> returns k v lm a' P2 R) ->
  returns (VPtr 151) xs (l, M) a P R.
Proof.
  intros L A H h g P' s e c d I U Ret. lift U. clear U. pose proof (sub_refl P') as B. enter_lib. do 2 one.
  eapply (r_cons_new proc _ Inv own Ok); [inv|]. intros q hq Pq Iq Uq Hq New.
  match goal with J : env ?P1 ?e1 _ |- _ => rename J into E0; rename e1 into ev; rename P1 into P0' end.
  match goal with J : Inv _ _ _ _ P0' |- _ => clear J end.
  one. one. eapply (c_closure proc _ Inv own Ok); [inv|eassumption|]. intros r hr Pr Ir Ur Hr. renew Ir Ur. one.
  match goal with J : Inv _ ?h1 _ _ ?P1, H : ?P1 ?p (OClosure _ (VPtr r)) |- _ => rename J into Is; rename P1 into Ps; rename p into pw; rename H into Hw end.
  eapply (r_store proc _ Inv own Ok); [exact Is|reflexivity|exact Hr|exact Hq|]. intros hs P3 I3 Keep Hq3.
  assert (Hw3 : P3 pw (OClosure is_values_code (VPtr r))).
  { apply Keep; [exact Hw|]. intros ->. pose proof (inv_unique _ _ _ Ok _ _ _ _ _ Is _ _ _ Hw Hq). congruence. }
  assert (Hr3 : P3 r (OPair (VPtr q) ev)).
  { apply Keep; [exact Hr|]. intros ->. pose proof (inv_unique _ _ _ Ok _ _ _ _ _ Is _ _ _ Hr Hq) as T. injection T as T _. discriminate T. }
  assert (U3 : sub P0' P3).
  { intros x o Hx. apply Keep; [match goal with V : sub P0' Ps |- _ => apply V, Hx end|eapply New, Hx]. }
  clear Keep Hw Hr Hq Is. repeat match goal with V : sub _ Ps |- _ => clear V | H : Ps _ _ |- _ => clear H end.
  clear dependent New. lift U3. clear U3.
  assert (E3 : env P3 (VPtr r) [[VPtr pw]; [f; k]]) by (econstructor; [exact Hr3|args|assumption]).
  clear Hq3 Hr3. go. call H. destruct R0 as (us & D & R0).
  match goal with D : delivered ?P1 _ _ _ |- _ => pose proof (sub_refl P1) as B1 end.
  destruct l0 as [l0 M0]. cbn [snd] in D. destruct D as [D|(-> & D)]; go; enter; go.
  - match goal with |- calls _ ?ys _ _ _ _ _ _ ?a1 _ => match goal with J : Inv (?l1, ?M1) _ _ a1 ?P2 |- _ =>
      assert (T : returns (VPtr pw) ys (l1, M1) a1 P2 (fun v lm a' _ => v = t_ /\ lm = (l1, M1) /\ a' = a1)) end end.
    { eapply is_values; [assumption|exact Hw3|exact E3|args|]. left. split; [reflexivity|]. exists us. exact D. }
    call T. destruct R1 as (-> & -> & ->). pose proof D as (qq & vv & -> & Hqq & Vv). go.
    eapply (apply_two proc Proc _ _ _ Ok); [inv|assumption|args|]. intros hz Pz Iz Uz. renew Iz Uz. last. eapply R0; [assumption|eassumption].
  - match goal with |- calls _ ?ys _ _ _ _ _ _ ?a1 _ => match goal with J : Inv (?l1, ?M1) _ _ a1 ?P2 |- _ =>
      assert (T : returns (VPtr pw) ys (l1, M1) a1 P2 (fun v lm a' _ => v = f_ /\ lm = (l1, M1) /\ a' = a1)) end end.
    { eapply is_values; [assumption|exact Hw3|exact E3|args|]. right. split; [reflexivity|]. exact D. }
    call T. destruct R1 as (-> & -> & ->). go. last. eapply R0; [assumption|args].
Qed.
End Values.
