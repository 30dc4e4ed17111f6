(** What parameters of library/srfi-39.ss do on the machine. *)
From Coq Require Import String ZArith List Bool Lia.
From Verif Require Import Machine Generator Evaluate LibraryCode Reach Symbolic ContinuationProofs WindSpec TransferProofs MapProofs.
Import ListNotations.

(** ** The code *)
Definition make_code : code := Eval vm_compute in
  match code_of "make-parameter" with [_; _; _; _; _; _; _; _; ILoadClosure c; _] => c | _ => [] end.
Definition letrec_body : code := Eval vm_compute in
  match code_of "make-parameter" with
  | [_; _; _; _; _; _; _; _; ILoadClosure [_; _; _; _; _; _; _; _; _; _; _; _; _; ILoadClosure c; _]; _] => c
  | _ => []
  end.
Definition parameter_code : code := Eval vm_compute in match letrec_body with _ :: _ :: ILoadClosure c :: _ => c | _ => [] end.
Definition identity_code : code := [ILoadRelative 0 0; IReturn].
(** A parameter: its place, its converter and the cell of its global value *)
Definition parameter (P : frame) (q : nat) (conv : val) (D : nat) : Prop :=
  exists e r, P q (OClosure parameter_code e) /\ env P e ([VPtr q] :: [VPtr D] :: [conv] :: r).
Lemma parameter_up P P' q conv D : sub P P' -> parameter P q conv D -> parameter P' q conv D.
Proof. intros U (e & r & H & E). exists e, r. split; [apply U, H|eapply env_up; eassumption]. Qed.

Section Letrec.
Variable proc : nat -> heap -> val -> presult.
Variable ghost : Type.
Variable Inv : ghost -> heap -> list gval -> list val -> frame -> Prop.
Variable own : nat -> Prop.
Hypothesis Ok : invariant own Inv.
Lemma r_dummy l s e c d h g a P Q : Inv l h g a P ->
  (forall r h' P', Inv l h' g a P' -> sub P P' -> P' r (OPair VNil e) -> (forall q o, P q o -> q <> r) -> reaches proc (St s (VPtr r) c d h' g a) Q) ->
  reaches proc (St s e (IDummy :: c) d h g a) Q.
Proof.
  intros I K. eapply r_next; [reflexivity|]. eapply K; [apply (inv_alloc _ _ Ok); exact I|apply add_sub|apply add_new|].
  intros q o H ->. pose proof (inv_low _ _ _ Ok _ _ _ _ _ I _ _ H). lia.
Qed.
Lemma r_closure_new l s e c d h g a P c' Q : Inv l h g a P ->
  (forall p h' P', Inv l h' g a P' -> sub P P' -> P' p (OClosure c' e) -> (forall q o, P q o -> q <> p) -> reaches proc (St (VPtr p :: s) e c d h' g a) Q) ->
  reaches proc (St s e (ILoadClosure c' :: c) d h g a) Q.
Proof.
  intros I K. eapply r_next; [reflexivity|]. eapply K; [apply (inv_alloc _ _ Ok); exact I|apply add_sub|apply add_new|].
  intros q o H ->. pose proof (inv_low _ _ _ Ok _ _ _ _ _ I _ _ H). lia.
Qed.
Lemma r_tail_letrec l p xs s e c d h g a P c' r y e0 Q : Inv l h g a P -> P p (OClosure c' (VPtr r)) -> P r (OPair y e0) ->
  (forall h' P', Inv l h' g a P' -> (forall q o, P q o -> q <> r -> P' q o) -> P' r (OPair xs e0) -> reaches proc (St [] (VPtr r) c' d h' g a) Q) ->
  reaches proc (St (VPtr p :: xs :: s) e (ITailLetrec :: c) d h g a) Q.
Proof.
  intros I Hp Hr K. eapply r_next.
  - cbn [step callee]. rewrite (inv_has _ _ Ok _ _ _ _ _ _ _ I Hp). cbn [set_car]. rewrite (inv_has _ _ Ok _ _ _ _ _ _ _ I Hr). reflexivity.
  - apply K with (P' := put P r (OPair xs e0)).
    + eapply (inv_write _ _ Ok); eassumption.
    + intros q o Hq N. left. split; assumption.
    + right. split; reflexivity.
Qed.
End Letrec.

Section Bindings.
Variable proc : nat -> heap -> val -> presult.
Hypothesis Proc : forall n h xs, n < length procedures -> proc n h xs = library_primitive n h xs.
Variable ghost : Type.
Variable Inv : ghost -> heap -> list gval -> list val -> frame -> Prop.
Variable own : nat -> Prop.
Hypothesis Ok : invariant own Inv.
Variable aim : state -> Prop.
Notation returns := (returns proc ghost Inv aim).
Notation reaches := (reaches proc).
Notation calls := (calls proc).

Ltac lift_more P P' U ::=
  match goal with
  | F : chain P _ _ |- _ => apply (chain_up P P' _ _ U) in F
  | F : parameter P _ _ _ |- _ => apply (parameter_up P P' _ _ _ U) in F
  | F : Forall2 (lst P) _ _ |- _ => apply (lsts_up P P' _ _ U) in F
  end.

(** (current-dynamic-bindings), (install-dynamic-bindings! x) *)
Lemma current_bindings l h g a P X s e c d Q : Inv l h g a P -> lib P -> nth_error a 1 = Some X ->
  (forall h', Inv l h' g a P -> reaches (St (X :: s) e c d h' g a) Q) ->
  calls (VPtr 131) VNil s e c d h g a Q.
Proof. intros I L A K. eapply (c_current _ _ _ _ Ok); [exact I|exact L|reflexivity|exact A|exact K]. Qed.
Lemma install_bindings l h g a P x xs s e c d Q : own 1 -> Inv l h g a P -> lib P -> lst P xs [x] ->
  (forall h', Inv l h' g (update a 1 x) P -> reaches (St (x :: s) e c d h' g (update a 1 x)) Q) ->
  calls (VPtr 132) xs s e c d h g a Q.
Proof. intros O I L A K. eapply (c_install _ _ _ _ Ok); [exact I|exact L|exact O|lia|reflexivity|exact A|exact K]. Qed.

(** The cell that a parameter uses: the innermost binding, or that of its global value *)
Definition cell_of_parameter (q D : nat) (B : list (nat * val * val)) : nat := match find_cell (VPtr q) B with Some (p, _) => p | None => D end.
(** The parameter is called: its cell is looked up, then what the number of arguments asks for *)
Lemma parameter_enters l h g a P q conv D X vs B xs us s e c d Q : Inv l h g a P -> lib P -> parameter P q conv D ->
  nth_error a 1 = Some X -> lst P X vs -> cells_at P vs B -> lst P xs us ->
  (forall r h' P' fs, Inv l h' g a P' -> sub P P' -> env P' r ([VPtr (cell_of_parameter q D B)] :: us :: [VPtr q] :: [VPtr D] :: [conv] :: fs) ->
    reaches (St [] r (match parameter_code with [_; _; _; _; _; _; _; _; _; _; _; _; _; _; _; ILoadClosure c; _] => c | _ => [] end) (DS s :: DE e :: DC c :: d) h' g a) Q) ->
  calls (VPtr q) xs s e c d h g a Q.
Proof.
  intros I L (e1 & r1 & Hq & E) A V C X0 K. pose proof (sub_refl P) as B0.
  eapply (c_private proc _ Inv own Ok); [inv|exact Hq|exact X0|exact E|]; entered. unfold parameter_code. go.
  eapply current_bindings; [inv|assumption|eassumption|]. intros hc Ic. drop_old Ic. go.
  eapply (c_assq _ Proc _ _ _ Ok); [inv|assumption|args|eassumption|eassumption|]. go. unfold cell_of_parameter in K. 
  destruct (find_cell (VPtr q) B) as [[pc wc]|].
  - enter. go. enter. eapply K; [inv|assumption|eassumption].
  - enter. go. enter. eapply K; [inv|assumption|eassumption].
Qed.
(** (parameter) *)
Lemma parameter_get l a P q conv D X vs B u y : lib P -> parameter P q conv D ->
  nth_error a 1 = Some X -> lst P X vs -> cells_at P vs B -> P (cell_of_parameter q D B) (OPair y u) ->
  returns (VPtr q) VNil l a P (fun w l' a' _ => w = u /\ l' = l /\ a' = a).
Proof.
  intros L H A V C Hc h g P' s e c d I U Ret. lift U. clear U. pose proof (sub_refl P') as B0.
  eapply parameter_enters; [inv|assumption|exact H|exact A|exact V|exact C|apply L_nil|]. intros r h' P1 fs I1 U1 E1. renew I1 U1. cbn [parameter_code].
  go. finish. auto.
Qed.
(** (parameter value) *)
Lemma parameter_set l h g a P q conv D X vs B xs v s e c d : Inv l h g a P -> lib P -> parameter P q conv D ->
  nth_error a 1 = Some X -> lst P X vs -> cells_at P vs B -> lst P xs [v] ->
  (forall P1 w, sub P P1 -> lst P1 w [v] -> returns conv w l a P1 (fun u l' a' P' =>
     exists y z, P' (cell_of_parameter q D B) (OPair y z) /\
     forall h' g' P2, Inv l' h' g' a' P2 -> (forall r o, P' r o -> r <> cell_of_parameter q D B -> P2 r o) -> P2 (cell_of_parameter q D B) (OPair y u) ->
       reaches (St (u :: s) e c d h' g' a') aim)) ->
  calls (VPtr q) xs s e c d h g a aim.
Proof.
  intros I L H A V C X0 K. pose proof (sub_refl P) as B0.
  eapply parameter_enters; [inv|assumption|exact H|exact A|exact V|exact C|exact X0|]. intros r h' P1 fs I1 U1 E1. renew I1 U1. cbn [parameter_code].
  go. match goal with |- Reach.calls _ conv ?w _ _ _ _ _ _ _ _ => pose proof (K _ w B0 ltac:(args)) as R0 end.
  eapply R0; [inv|apply sub_refl|].
  intros u l' h1' g' a' P' I' U' (y & z & Hc & G). renew I' U'. clear K R0. pose proof (sub_refl P') as B1. go.
  change (VPtr 107) with (VPtr (103 + 4)). eapply (c_set _ Proc _ _ _ Ok); [right; reflexivity|inv|assumption|args|exact Hc|]. intros h2' Pz I2 Keep N2.
  eapply G; [exact I2| |exact N2]. intros r1 o Hr Ne. apply Keep; [apply B1, Hr|exact Ne].
Qed.
(** (parameter value 'convert) *)
Lemma parameter_convert l a P q conv D X vs B xs v z (K : val -> ghost -> list val -> frame -> Prop) : lib P -> parameter P q conv D ->
  nth_error a 1 = Some X -> lst P X vs -> cells_at P vs B -> lst P xs [v; z] ->
  (forall P1 w, sub P P1 -> lst P1 w [v] -> returns conv w l a P1 K) -> returns (VPtr q) xs l a P K.
Proof.
  intros L H A V C X0 K0 h g P' s e c d I U Ret.
  assert (K1 : forall P1 w, sub P' P1 -> lst P1 w [v] -> returns conv w l a P1 K) by (intros P1 w U1; apply K0; eapply sub_trans; eassumption).
  lift U. clear U K0. pose proof (sub_refl P') as B0.
  eapply parameter_enters; [inv|assumption|exact H|exact A|exact V|exact C|exact X0|]. intros r h' P1 fs I1 U1 E1. renew I1 U1. cbn [parameter_code].
  go. match goal with |- Reach.calls _ conv ?w _ _ _ _ _ _ _ _ => pose proof (K1 _ w B0 ltac:(args)) as R0 end. last. exact R0.
Qed.

(** ** make-parameter *)
(** conv is called once, with the initial value; the result is the global value *)
Definition makes (l : ghost) (a : list val) (P : frame) (init conv : val) (K : val -> ghost -> list val -> frame -> Prop) : Prop :=
  forall P1 w, sub P P1 -> lst P1 w [init] -> returns conv w l a P1 (fun u l' a' P' =>
    forall q D P2, sub P' P2 -> (forall r o, P' r o -> r <> q) -> parameter P2 q conv D -> P2 D (OPair (VPtr q) u) -> K (VPtr q) l' a' P2).
Lemma makes_up l a P P' init conv K : sub P P' -> makes l a P init conv K -> makes l a P' init conv K.
Proof. intros U H P1 w V. apply H. eapply sub_trans; eassumption. Qed.
Lemma make_inner l a P p e1 init cs fs xs conv K : lib P -> P p (OClosure make_code e1) -> env P e1 ((init :: cs) :: fs) -> lst P xs [conv] ->
  makes l a P init conv K -> returns (VPtr p) xs l a P K.
Proof.
  intros L Hp E A H h g P' s e c d I U Ret. apply (makes_up _ _ _ _ _ _ _ U) in H. lift U. clear U. pose proof (sub_refl P') as B0.
  enter. unfold make_code. go.
  match goal with |- Reach.calls _ conv ?w _ _ _ _ _ _ _ _ => pose proof (H _ w B0 ltac:(args)) as R0 end. clear H.
  call R0. clear R0. match goal with J : Inv _ _ _ _ ?Px |- _ => rename Px into Pc; pose proof (sub_refl Pc) as B1 end.
  do 4 one.
  match goal with J : Inv _ _ _ _ ?Px, E0 : env ?Px e0 ?f |- _ => rename Px into Pb;
    assert (Save : forall Pf, sub Pb Pf -> lib Pf /\ env Pf e0 f /\ sub P' Pf /\ sub Pc Pf) by
      (intros Pf Uf; split; [eapply lib_up; eassumption|]; split; [eapply env_up; eassumption|]; split; eapply sub_trans; eassumption);
    pose proof (sub_refl Pb) as Bb end.
  one. eapply (c_new _ Proc _ _ _ Ok); [inv|assumption|args|]. intros D hD PD ID UD HD NewD.
  match goal with V : lib Pb |- _ => clear V end. repeat match goal with F : env Pb _ _ |- _ => clear F | F : lst Pb _ _ |- _ => clear F end.
  renew ID UD. do 3 one.
  eapply (c_closure _ _ _ _ Ok); [inv|eassumption|]. intros k hk Pk Ik Uk Hk. renew Ik Uk.
  match goal with J : Inv _ _ _ _ ?Px |- _ => pose proof (sub_refl Px) as B2; rename Px into Pd end.
  eapply (r_dummy _ _ _ _ Ok); [inv|]. intros r0 hr Pr Ir Ur Hr Newr.
  assert (Newr' : forall q o, Pb q o -> q <> r0) by (intros q o Hq; eapply Newr, Bb, Hq). clear Newr.
  renew Ir Ur. one.
  eapply (r_closure_new _ _ _ _ Ok); [inv|]. intros q0 hq Pq Iq Uq Hq0 Newq.
  assert (Newq' : forall q o, Pc q o -> q <> q0) by (intros q o Hq; eapply Newq, B1, Hq). clear Newq. renew Iq Uq. do 2 one.
  match goal with J : Inv _ _ _ _ _ |- _ => rename J into Is end.
  eapply (r_tail_letrec _ _ _ _ Ok); [exact Is|eassumption|exact Hr|]. intros hs Pl Il Keep Hrl.
  assert (Ul : sub Pb Pl) by (intros x o Hx; apply Keep; [apply Bb, Hx|eapply Newr', Hx]).
  kept Is Hr Keep. clear Keep Hr Is Bb B2 B0 B1.
  destruct (Save Pl Ul) as (Ll & El & _ & _).
  assert (E3 : env Pl (VPtr r0) ([VPtr q0] :: [VPtr D] :: [conv] :: (init :: cs) :: fs)).
  { econstructor; [exact Hrl|args|]. econstructor; [exact Hk|args|exact El]. }
  do 7 one. match goal with J : Inv _ _ _ _ _ |- _ => rename J into It end.
  change (VPtr 106) with (VPtr (103 + 3)). eapply (c_set _ Proc _ _ _ Ok); [left; reflexivity|exact It|assumption|args|exact HD|]. cbn [Nat.eqb]. intros ht Pt It' Keep HDt.
  assert (Ut : sub Pb Pt) by (intros x o Hx; apply Keep; [apply Ul, Hx|eapply NewD, Hx]).
  kept It HD Keep. clear Keep HD It Ul. destruct (Save Pt Ut) as (Lt & Et & Bt & Bc).
  assert (E4 : env Pt (VPtr r0) ([VPtr q0] :: [VPtr D] :: [conv] :: (init :: cs) :: fs)).
  { econstructor; [exact Hrl|args|]. econstructor; [exact Hk|args|exact Et]. }
  go. finish. apply (R q0 D); [exact Bc|exact Newq'| |exact HDt]. exists (VPtr r0), ((init :: cs) :: fs). split; [exact Hq0|exact E4].
Qed.
Lemma make_parameter_conv l a P xs init conv K : lib P -> lst P xs [init; conv] -> makes l a P init conv K -> returns (VPtr 133) xs l a P K.
Proof.
  intros L A H h g P' s e c d I U Ret. apply (makes_up _ _ _ _ _ _ _ U) in H. lift U. clear U. pose proof (sub_refl P') as B0. enter_lib. go.
  last. eapply make_inner; [assumption|eassumption|eassumption|args|]. eapply makes_up; eassumption.
Qed.
(** Without a converter: the initial value is the global value *)
Lemma make_parameter_plain l a P xs init (K : val -> ghost -> list val -> frame -> Prop) : lib P -> lst P xs [init] ->
  (forall conv q D P2, sub P P2 -> (forall r o, P r o -> r <> q) -> parameter P2 q conv D -> P2 D (OPair (VPtr q) init) ->
    (forall l1 a1 P3 w u, sub P2 P3 -> lst P3 w [u] -> returns conv w l1 a1 P3 (fun v l' a' _ => v = u /\ l' = l1 /\ a' = a1)) -> K (VPtr q) l a P2) ->
  returns (VPtr 133) xs l a P K.
Proof.
  intros L A H h g P' s e c d I U Ret.
  assert (U0 := U). lift U. clear U. pose proof (sub_refl P') as B0. enter_lib. go.
  last. eapply make_inner; [assumption|eassumption|eassumption|args|].
  match goal with F : ?P0 ?q (OClosure [ILoadRelative 0 0; IReturn] _) |- makes _ _ ?P0 _ _ _ => assert (Id : forall l1 a1 P3 w u, sub P0 P3 -> lst P3 w [u] -> returns (VPtr q) w l1 a1 P3 (fun v l' a' _ => v = u /\ l' = l1 /\ a' = a1)) end.
  { intros l1 a1 P9 w u V W h9 g9 P10 s9 e9 c9 d9 I9 V9 Ret9. lift V. lift V9. clear U0. pose proof (sub_refl P10) as B9. enter. go. finish. auto. }
  intros P9 w V W. eapply returns_mono; [|apply Id; eassumption]. intros v0 l' a' P10 V10 (-> & -> & ->) q D P11 V11 N Pa HD.
  eapply H; [| |exact Pa|exact HD|].
  - intros r o Hr. apply V11, V10, V, U0, Hr.
  - intros r o Hr. apply (N r o), V10, V, U0, Hr.
  - intros l1 a1 P12 w1 u V12 W1. apply Id; [|exact W1]. intros r o Hr. apply V12, V11, V10, V, Hr.
Qed.

(** ** parameterize *)
(** The list of bindings in register 1 *)
Definition bound (P : frame) (a : list val) (B : list (nat * val * val)) : Prop :=
  exists X vs, nth_error a 1 = Some X /\ lst P X vs /\ cells_at P vs B.
Lemma bound_up P P' a B : sub P P' -> bound P a B -> bound P' a B.
Proof. intros U (X & vs & A & V & C). exists X, vs. split; [exact A|]. split; [eapply lst_up; eassumption|eapply cells_up; eassumption]. Qed.
(** The converters are called one after the other, each with its value; then the results are as said *)
Fixpoint conversions (cs : list (val * val)) (l : ghost) (a : list val) (P : frame) (K : list val -> ghost -> list val -> frame -> Prop) : Prop :=
  match cs with
  | [] => forall P', sub P P' -> K [] l a P'
  | (conv, u) :: cs => (exists B, bound P a B) /\
      forall P1 w, sub P P1 -> lst P1 w [u] -> returns conv w l a P1 (fun y l' a' P' => conversions cs l' a' P' (fun ys => K (y :: ys)))
  end.
Lemma conversions_up cs l a P P' K : sub P P' -> conversions cs l a P K -> conversions cs l a P' K.
Proof.
  intros U. destruct cs as [|[conv u] cs]; cbn [conversions].
  - intros H P1 V. apply H. eapply sub_trans; eassumption.
  - intros [(B & Hb) H]. split; [exists B; eapply bound_up; eassumption|]. intros P1 w V. apply H. eapply sub_trans; eassumption.
Qed.
Lemma conversions_mono cs : forall l a P (K K' : list val -> ghost -> list val -> frame -> Prop),
  (forall ys l' a' P', sub P P' -> K ys l' a' P' -> K' ys l' a' P') -> conversions cs l a P K -> conversions cs l a P K'.
Proof.
  induction cs as [|[conv u] cs IH]; cbn [conversions]; intros l a P K K' M H.
  - intros P' U. apply M; [exact U|apply H, U].
  - destruct H as [Hb H]. split; [exact Hb|]. intros P1 w U W. eapply returns_mono; [|apply (H P1 w U W)]. intros y l' a' P' V. apply IH.
    intros ys l2 a2 P2 V2. apply M. intros r o Hr. apply V2, V, U, Hr.
Qed.
(** Pairs of a parameter and a value, and what converts them *)
Definition bind_code : code := Eval vm_compute in
  match code_of "dynamic-bind" with [_; _; _; _; _; _; ILoadClosure c; _; _; _; _; _; _; _; _; _; _] => c | _ => [] end.
Fixpoint made (ps qs : list nat) (ys : list val) : list (nat * val * val) :=
  match ps, qs, ys with p :: ps, q :: qs, y :: ys => (p, VPtr q, y) :: made ps qs ys | _, _, _ => [] end.
Lemma each_bind r e1 fs cs : forall qs us l a P (K : list val -> ghost -> list val -> frame -> Prop), lib P -> P r (OClosure bind_code e1) -> env P e1 fs ->
  Forall2 (fun q c => exists D, parameter P q (fst c) D) qs cs -> us = map snd cs ->
  conversions cs l a P (fun ys l' a' P' => forall P2 ps, sub P' P2 -> length ps = length qs -> length ys = length qs -> cells_at P2 (map VPtr ps) (made ps qs ys) -> K (map VPtr ps) l' a' P2) ->
  each proc ghost Inv aim (VPtr r) (map (fun qu => [VPtr (fst qu); snd qu]) (combine qs us)) l a P K.
Proof.
  induction cs as [|[conv u] cs IH]; intros qs us l a P K L Hr E F -> H; inversion F as [|q ? qs' ? (D & Hq) F']; subst; cbn [map combine each snd fst].
  - intros P' U. cbn [conversions] in H. apply (H P' U P' []); [apply sub_refl|reflexivity|reflexivity|constructor].
  - cbn [fst] in Hq. intros P1 v U W h g P2 s e c d I V Ret. cbn [conversions] in H. destruct H as [(B & Hb) H]. 
    pose proof (sub_trans _ _ _ U V) as T. pose proof T as T0. lift T. lift V. pose proof (sub_refl P2) as B0.
    apply (bound_up _ _ _ _ T0) in Hb. destruct Hb as (X & vs & A & VX & C). clear T. enter. unfold bind_code. go.
    match goal with |- Reach.calls _ _ (VPtr ?px) _ _ _ _ _ _ _ _ => match goal with J : Inv _ _ _ _ ?Pn |- _ =>
      assert (R : returns (VPtr q) (VPtr px) l a Pn (fun y l' a' P' => conversions cs l' a' P' (fun ys l2 a2 P3 => forall P4 ps, sub P3 P4 ->
        length ps = length (q :: qs') -> length (y :: ys) = length (q :: qs') -> cells_at P4 (map VPtr ps) (made ps (q :: qs') (y :: ys)) -> K (map VPtr ps) l2 a2 P4))) end end.
    { eapply parameter_convert; [assumption|exact Hq|exact A|exact VX|exact C|args|]. intros P9 w U9 W9. eapply H; [|exact W9]. intros x o Hx. apply U9, T0, Hx. }
    call R. clear R H. match goal with J : Inv _ _ _ _ ?Pn |- _ => pose proof (sub_refl Pn) as B1 end. go. finish.
    apply (conversions_up _ _ _ _ _ _ B1) in R0.
    eapply IH; [assumption|eassumption|eassumption| |reflexivity|].
    + clear - F' T0. induction F' as [|q1 c1 qs' cs (D & Hq) F' IH]; constructor; [exists D; eapply parameter_up; eassumption|exact IH].
    + eapply conversions_mono; [|exact R0]. intros ys l' a' P' V' G P9 ps V9 N1 N2 C9.
      match goal with F : ?Pn ?pc (OPair (VPtr q) r0) |- _ => apply (G P9 (pc :: ps)); [exact V9|cbn; lia|cbn; lia|] end.
      cbn [map made]. constructor; [|exact C9]. apply V9, V'. assumption.
Qed.

Definition wind_body : code := Eval vm_compute in
  match code_of "dynamic-bind" with [_; _; _; _; _; _; _; _; _; _; _; _; _; _; _; ILoadClosure c; _] => c | _ => [] end.
Definition before_code : code := Eval vm_compute in
  match wind_body with [_; _; _; _; _; ILoadClosure c; _; _; _] => c | _ => [] end.
Definition after_code : code := Eval vm_compute in match wind_body with _ :: ILoadClosure c :: _ => c | _ => [] end.
Notation installs := (installs proc ghost Inv aim 1).
Hypothesis Own0 : own 0.
Hypothesis Own1 : own 1.
Lemma before_installs P b e1 X w fs ws vs : lib P -> P b (OClosure before_code e1) -> env P e1 ([X; w] :: fs) -> lst P w ws -> lst P X vs -> installs P (VPtr b) (ws ++ vs).
Proof.
  intros L Hb E W V l a P' U h g P1 s e c d I U1 Ret. lift U. lift U1. clear U U1. pose proof (sub_refl P1) as B0. enter. unfold before_code. go.
  eapply install_bindings; [exact Own1|inv|assumption|args|]. intros h' I'. drop_old I'. finish. split; [reflexivity|]. eexists. split; [reflexivity|].
  eapply seg_lst; eassumption.
Qed.
Lemma after_installs P z e1 X w fs vs : lib P -> P z (OClosure after_code e1) -> env P e1 ([X; w] :: fs) -> lst P X vs ->
  forall l a P', sub P P' -> returns (VPtr z) VNil l a P' (fun _ l' a' P2 => l' = l /\ a' = update a 1 X /\ lst P2 X vs).
Proof.
  intros L Hb E V l a P' U h g P1 s e c d I U1 Ret. lift U. lift U1. clear U U1. pose proof (sub_refl P1) as B0. enter. unfold after_code. go.
  eapply install_bindings; [exact Own1|inv|assumption|args|]. intros h' I'. drop_old I'. finish. auto.
Qed.
Lemma Forall2_len {A B} (R : A -> B -> Prop) l m : Forall2 R l m -> length l = length m.
Proof. induction 1; cbn; lia. Qed.
Lemma rows_two us : forall ws, length us = length ws -> rows [us; ws] = map (fun uw => [fst uw; snd uw]) (combine us ws).
Proof.
  induction us as [|u us IH]; intros [|w ws] N; cbn in N; try lia; [reflexivity|].
  rewrite rows_more; [|discriminate|intros [X|[X|[]]]; discriminate X]. cbn [map hd tl combine fst snd]. rewrite IH by lia. reflexivity.
Qed.

Lemma dynamic_bind_runs l a P xs pv vv body qs cs (R : val -> ghost -> list val -> frame -> Prop) : lib P -> lst P xs [pv; vv; body] ->
  lst P pv (map VPtr qs) -> lst P vv (map snd cs) -> Forall2 (fun q c => exists D, parameter P q (fst c) D) qs cs ->
  conversions cs l a P (fun ys l1 a1 P1 => exists X1 vs1 B1 E F, nth_error a1 1 = Some X1 /\ lst P1 X1 vs1 /\ cells_at P1 vs1 B1 /\ nth_error a1 0 = Some E /\ chain P1 E F /\
    forall ps b z p w P2, sub P1 P2 -> length ps = length qs -> length ys = length qs -> cells_at P2 (map VPtr ps) (made ps qs ys) -> lst P2 w (map VPtr ps ++ vs1) ->
      chain P2 (VPtr p) (Ext p b z :: F) -> installs P2 b (map VPtr ps ++ vs1) -> installs P2 z vs1 ->
      returns body VNil l1 (update (update a1 1 w) 0 (VPtr p)) P2 (fun v l2 a2 P3 => nth_error a2 0 = Some (VPtr p) /\
        forall P4, sub P3 P4 -> R v l2 (update (update a2 0 E) 1 X1) P4)) ->
  returns (VPtr 134) xs l a P R.
Proof.
  intros L A PV VV F H h g P' s e c d I U Ret. apply (conversions_up _ _ _ _ _ _ U) in H.
  assert (F0 : Forall2 (fun q c => exists D, parameter P' q (fst c) D) qs cs).
  { eapply Forall2_impl; [|exact F]. intros q c0 (D & Hq). exists D. eapply parameter_up; eassumption. }
  clear F. lift U. clear U. pose proof (sub_refl P') as B0. enter_lib. go.
  match goal with |- Reach.calls _ _ (VPtr ?px) _ _ _ _ _ _ _ _ => match goal with J : Inv _ _ _ _ ?Pn |- _ =>
    match type of H with conversions _ _ _ _ ?KK =>
    assert (M : returns (VPtr 130) (VPtr px) l a Pn (fun w l' a' P2 => exists ps ys P1, sub P1 P2 /\ length ps = length qs /\ length ys = length qs /\
      lst P2 w (map VPtr ps) /\ cells_at P2 (map VPtr ps) (made ps qs ys) /\ KK ys l' a' P1)) end end end.
  { eapply (map_runs proc Proc _ _ _ Ok aim) with (Ls := [map VPtr qs; map snd cs]); [assumption|args|constructor; [eassumption|constructor; [eassumption|constructor]]|].
    rewrite rows_two by (rewrite !map_length; eapply Forall2_len; exact F0).
    match goal with F : ?Pn ?r (OClosure _ _) |- each _ _ _ _ (VPtr ?r) _ _ _ ?Pn _ => pose proof (fun K => each_bind r _ _ cs qs (map snd cs) l a Pn K ltac:(assumption) F ltac:(eassumption)) as Z end.
    replace (map (fun uw : val * val => [fst uw; snd uw]) (combine (map VPtr qs) (map snd cs))) with (map (fun qu : nat * val => [VPtr (fst qu); snd qu]) (combine qs (map snd cs))).
    - apply Z; [|reflexivity|].
      + eapply Forall2_impl; [|exact F0]. intros q c0 (D & Hq). exists D. eapply parameter_up; eassumption.
      + eapply conversions_up; [exact B0|]. eapply conversions_mono; [|exact H]. intros ys l' a' P1' U1 G P2' ps U2 N1 N2 C P3' w U3 W.
        exists ps, ys, P1'. split; [eapply sub_trans; eassumption|]. split; [exact N1|]. split; [exact N2|]. split; [exact W|]. split; [eapply cells_up; eassumption|exact G].
    - clear. generalize (map snd cs). induction qs as [|q qs IH]; intros [|u us]; cbn; [reflexivity..|]. f_equal. apply IH. }
  call M. clear M H. destruct R0 as (ps & ys & P1' & U1 & N1 & N2 & W & C & X1 & vs1 & B1 & E & Fe & A1 & V1 & C1 & A0 & Ch & H).
  lift U1. go. eapply current_bindings; [inv|assumption|eassumption|]. intros hc Ic. drop_old Ic. go. enter. go. last.
  eapply (dynamic_wind_runs proc Proc _ _ _ Ok Own0 aim); [assumption|args|exact A0|eassumption|].
  match goal with F : ?Pn p9 (OClosure _ ?ev) |- _ => rename Pn into Pnow;
    pose proof (before_installs Pnow p9 ev X1 r _ _ vs1 ltac:(assumption) F ltac:(eassumption) W ltac:(eassumption)) as Hb end.
  match goal with F : ?Pn p6 (OClosure _ ?ev) |- _ => pose proof (after_installs Pn p6 ev X1 r _ vs1 ltac:(assumption) F ltac:(eassumption) ltac:(eassumption)) as Hz end.
  eapply returns_mono; [|apply Hb, sub_refl]. cbn beta. intros v9 l' a' P20 U20 (-> & w & -> & W20).
  split; [rewrite register_ne by lia; exact A0|]. intros pe P21 U21 Ch21.
  assert (T : sub Pnow P21) by (eapply sub_trans; eassumption).
  eapply returns_mono; [|apply (H ps (VPtr p9) (VPtr p6) pe w P21)].
  - cbn beta. intros v l2 a2 P22 U22 (Ha & G). split; [exact Ha|].
    eapply returns_mono; [|apply Hz; eapply sub_trans; eassumption]. cbn beta. intros v10 l3 a3 P23 U23 (-> & -> & _). apply G, U23.
  - eapply sub_trans; eassumption.
  - exact N1.
  - exact N2.
  - eapply cells_up; eassumption.
  - exact (lst_up _ _ _ _ U21 W20).
  - exact Ch21.
  - intros l3 a3 P24 U24. apply Hb. eapply sub_trans; eassumption.
  - intros l3 a3 P24 U24. eapply returns_mono; [|apply Hz; eapply sub_trans; eassumption]. cbn beta. intros v10 l4 a4 P25 U25 (-> & -> & V25).
    split; [reflexivity|]. exists X1. split; [reflexivity|exact V25].
Qed.

End Bindings.
