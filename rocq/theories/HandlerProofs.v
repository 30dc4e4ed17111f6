(** What the exception handlers of library/srfi-34.ss do on the machine. *)
From Coq Require Import String ZArith List Bool Lia.
From Verif Require Import Machine Generator Evaluate LibraryCode Reach Symbolic ContinuationProofs WindSpec TransferProofs.
Import ListNotations.

Section Handlers.
Variable proc : nat -> heap -> val -> presult.
Hypothesis Proc : forall n h xs, n < length procedures -> proc n h xs = library_primitive n h xs.
Variable ghost : Type.
Variable Inv : ghost -> heap -> list gval -> list val -> frame -> Prop.
Variable own : nat -> Prop.
Hypothesis Ok : invariant own Inv.
Variable aim : state -> Prop.
Notation returns := (returns proc ghost Inv aim).
Notation reaches := (reaches proc).
Notation calls := (calls proc).
Notation installs := (installs proc ghost Inv aim 2).
Hypothesis Own0 : own 0.
Hypothesis Own2 : own 2.

Ltac lift_more P P' U ::=
  match goal with
  | F : chain P _ _ |- _ => apply (chain_up P P' _ _ U) in F
  end.

(** (current-exception-handlers), (install-exception-handlers! x) *)
Lemma current_handlers l h g a P X s e c d Q : Inv l h g a P -> lib P -> nth_error a 2 = Some X ->
  (forall h', Inv l h' g a P -> reaches (St (X :: s) e c d h' g a) Q) -> calls (VPtr 135) VNil s e c d h g a Q.
Proof. intros I L A K. eapply (c_current _ _ _ _ Ok); [exact I|exact L|reflexivity|exact A|exact K]. Qed.
Lemma install_handlers l h g a P x xs s e c d Q : Inv l h g a P -> lib P -> lst P xs [x] ->
  (forall h', Inv l h' g (update a 2 x) P -> reaches (St (x :: s) e c d h' g (update a 2 x)) Q) -> calls (VPtr 136) xs s e c d h g a Q.
Proof. intros I L A K. eapply (c_install _ _ _ _ Ok); [exact I|exact L|exact Own2|lia|reflexivity|exact A|exact K]. Qed.
(** A thunk that puts the value v into the register *)
Definition puts (P : frame) (x v : val) : Prop :=
  forall l a P', sub P P' -> returns x VNil l a P' (fun _ l' a' _ => l' = l /\ a' = update a 2 v).
Lemma puts_installs P x v vs : puts P x v -> lst P v vs -> installs P x vs.
Proof.
  intros H V l a P' U. eapply returns_mono; [|apply H, U]. cbn beta. intros w l' a' P2 U2 (-> & ->). split; [reflexivity|]. exists v. split; [reflexivity|].
  eapply lst_up; [|exact V]. eapply sub_trans; eassumption.
Qed.

(** (with-exception-handlers new-handlers thunk) *)
Lemma with_handlers l a P xs new thunk Y E F (R : val -> ghost -> list val -> frame -> Prop) : lib P -> lst P xs [new; thunk] ->
  nth_error a 2 = Some Y -> nth_error a 0 = Some E -> chain P E F ->
  (forall b z p P2, sub P P2 -> chain P2 (VPtr p) (Ext p b z :: F) -> puts P2 b new -> puts P2 z Y ->
    returns thunk VNil l (update (update a 2 new) 0 (VPtr p)) P2 (fun v l2 a2 P3 => nth_error a2 0 = Some (VPtr p) /\
      forall P4, sub P3 P4 -> R v l2 (update (update a2 0 E) 2 Y) P4)) ->
  returns (VPtr 137) xs l a P R.
Proof.
  intros L A N2 N0 C H h g P' s e c d I U Ret.
  assert (U0 := U). lift U. clear U. pose proof (sub_refl P') as B0. enter_lib. go.
  eapply current_handlers; [inv|assumption|eassumption|]. intros hc Ic. drop_old Ic. go. enter. go. last.
  eapply (dynamic_wind_runs proc Proc _ _ _ Ok Own0 aim); [assumption|args|exact N0|eassumption|].
  match goal with F1 : ?Pn ?pb (OClosure [_; ILoadRelative 2 0; _; _; _] ?ev), E1 : env ?Pn ?ev _ |- _ => rename Pn into Pnow; rename F1 into Hb; rename pb into b; rename E1 into Ee end.
  match goal with F1 : Pnow ?pz (OClosure [_; ILoadRelative 1 0; _; _; _] _) |- _ => rename F1 into Hz; rename pz into z end.
  match goal with V : lib Pnow |- _ => rename V into Ln end.
  assert (Pb : puts Pnow (VPtr b) new).
  { clear - Hb Ee Ln Ok Own2. intros l a P9 U9 h9 g9 P10 s9 e9 c9 d9 I9 V9 Ret. lift U9. lift V9. clear U9 V9. pose proof (sub_refl P10) as B9.
    enter. go. eapply install_handlers; [inv|assumption|args|]. intros h' I'. drop_old I'. finish. auto. }
  assert (Pz : puts Pnow (VPtr z) Y).
  { clear - Hz Ee Ln Ok Own2. intros l a P9 U9 h9 g9 P10 s9 e9 c9 d9 I9 V9 Ret. lift U9. lift V9. clear U9 V9. pose proof (sub_refl P10) as B9.
    enter. go. eapply install_handlers; [inv|assumption|args|]. intros h' I'. drop_old I'. finish. auto. }
  eapply returns_mono; [|apply Pb, sub_refl]. cbn beta. intros v9 l' a' P20 U20 (-> & ->).
  split; [rewrite register_ne by lia; exact N0|]. intros pe P21 U21 Ch21.
  assert (T : sub Pnow P21) by (eapply sub_trans; eassumption).
  eapply returns_mono; [|apply (H (VPtr b) (VPtr z) pe P21)].
  - cbn beta. intros v l2 a2 P22 U22 (Ha & G). split; [exact Ha|].
    eapply returns_mono; [|apply Pz; eapply sub_trans; eassumption]. cbn beta. intros v10 l3 a3 P23 U23 (-> & ->). apply G, U23.
  - intros q o Hq. apply T, U0, Hq.
  - exact Ch21.
  - intros l3 a3 P24 U24. apply Pb. eapply sub_trans; eassumption.
  - intros l3 a3 P24 U24. apply Pz. eapply sub_trans; eassumption.
Qed.

(** (with-exception-handler handler thunk) *)
Lemma with_handler l a P xs handler thunk Y E F (R : val -> ghost -> list val -> frame -> Prop) : lib P -> lst P xs [handler; thunk] ->
  nth_error a 2 = Some Y -> nth_error a 0 = Some E -> chain P E F ->
  (forall b z p q P2, sub P P2 -> P2 q (OPair handler Y) -> chain P2 (VPtr p) (Ext p b z :: F) -> puts P2 b (VPtr q) -> puts P2 z Y ->
    returns thunk VNil l (update (update a 2 (VPtr q)) 0 (VPtr p)) P2 (fun v l2 a2 P3 => nth_error a2 0 = Some (VPtr p) /\
      forall P4, sub P3 P4 -> R v l2 (update (update a2 0 E) 2 Y) P4)) ->
  returns (VPtr 138) xs l a P R.
Proof.
  intros L A N2 N0 C H h g P' s e c d I U Ret.
  assert (U0 := U). lift U. clear U. pose proof (sub_refl P') as B0. enter_lib. go.
  eapply current_handlers; [inv|assumption|eassumption|]. intros hc Ic. drop_old Ic. go. last.
  eapply with_handlers; [assumption|args|exact N2|exact N0|eassumption|]. intros b z pe P9 U9 Ch9 B9 Z9.
  eapply H; [|apply U9; eassumption|exact Ch9|exact B9|exact Z9]. eapply sub_trans; eassumption.
Qed.

(** pair?, procedure? *)
Lemma c_pair l h g a P s e c d Q xs x : Inv l h g a P -> lib P -> lst P xs [x] ->
  reaches (St (make_bool (match callee h x with Some (OPair _ _) => true | _ => false end) :: s) e c d h g a) Q -> calls (VPtr 109) xs s e c d h g a Q.
Proof.
  intros I L A K. eapply (c_prim _ Proc _ _ _ Ok l 6); [exact I|exact L|cbn; lia| |exact K]. cbn [library_primitive primitive].
  rewrite (lst_head _ _ _ Ok _ _ _ _ _ _ _ 0 x I A) by reflexivity. reflexivity.
Qed.
Definition is_procedure (o : option obj) : bool := match o with Some (OClosure _ _ | OContinuation _ _ _ _ | OProcedure _) => true | _ => false end.
Lemma c_is_procedure l h g a P s e c d Q xs x : Inv l h g a P -> lib P -> lst P xs [x] ->
  reaches (St (make_bool (is_procedure (callee h x)) :: s) e c d h g a) Q -> calls (VPtr 112) xs s e c d h g a Q.
Proof.
  intros I L A K. eapply (c_prim _ Proc _ _ _ Ok l 9); [exact I|exact L|cbn; lia| |exact K]. cbn [library_primitive primitive].
  rewrite (lst_head _ _ _ Ok _ _ _ _ _ _ _ 0 x I A) by reflexivity. reflexivity.
Qed.
Lemma c_pair_lst l h g a P s e c d Q xs v us : Inv l h g a P -> lib P -> lst P xs [v] -> lst P v us ->
  reaches (St (match us with [] => f_ | _ => t_ end :: s) e c d h g a) Q -> calls (VPtr 109) xs s e c d h g a Q.
Proof.
  intros I L A V K. eapply c_pair; [exact I|exact L|exact A|]. destruct V as [|p x v us H V]; [exact K|].
  cbn [callee]. rewrite (inv_has _ _ Ok _ _ _ _ _ _ _ I H). exact K.
Qed.
(** What x is stays known: only pairs are written *)
Definition applicable (P : frame) (x : val) : Prop := exists q o, x = VPtr q /\ P q o /\ is_procedure (Some o) = true.
Lemma applicable_up P P' x : sub P P' -> applicable P x -> applicable P' x.
Proof. intros U (q & o & E & H & T). exists q, o. auto. Qed.

(** The state in which throw is called with x *)
Definition throws (x : val) (l : ghost) (a : list val) (P : frame) : Prop :=
  forall h g P' xs s e c d, Inv l h g a P' -> sub P P' -> lst P' xs [x] -> calls (VPtr 122) xs s e c d h g a aim.
Lemma throws_up x l a P P' : sub P P' -> throws x l a P -> throws x l a P'.
Proof. intros U H h g P2 xs s e c d I V. apply H; [exact I|eapply sub_trans; eassumption]. Qed.
Ltac lift_more P P' U ::=
  match goal with
  | F : chain P _ _ |- _ => apply (chain_up P P' _ _ U) in F
  | F : applicable P _ |- _ => apply (applicable_up P P' _ U) in F
  | F : throws _ _ _ P |- _ => apply (throws_up _ _ _ P P' U) in F
  end.
Lemma raise_none k l a P xs x (R : val -> ghost -> list val -> frame -> Prop) : k = 139 \/ k = 140 -> lib P -> lst P xs [x] -> nth_error a 2 = Some VNil -> throws x l a P -> returns (VPtr k) xs l a P R.
Proof.
  intros K L A N2 T h g P' s e c d I U Ret. lift U. clear U. pose proof (sub_refl P') as B0. destruct K as [-> | ->].
  - enter_lib. go. eapply current_handlers; [inv|assumption|eassumption|]. intros hc Ic. drop_old Ic. go.
    eapply c_pair_lst; [inv|assumption|args|apply L_nil|]. go. eapply T; [inv|apply sub_refl|args].
  - enter_lib. go. eapply current_handlers; [inv|assumption|eassumption|]. intros hc Ic. drop_old Ic. go.
    eapply c_pair_lst; [inv|assumption|args|apply L_nil|]. go. eapply T; [inv|apply sub_refl|args].
Qed.
Ltac handlers := eapply current_handlers; [inv|assumption|eassumption|]; let hc := fresh "hc" in let Ic := fresh "Ic" in intros hc Ic; drop_old Ic.
Ltac applies := match goal with H : applicable _ _ |- _ => let q := fresh "q" in let o := fresh "o" in let Hq := fresh "Hq" in let T := fresh "T" in
  pose proof H as (q & o & -> & Hq & T); with_ok ltac:(fun Ok => match goal with I : _ ?l ?h ?g ?a ?P |- reaches (St (make_bool (is_procedure (callee ?h (VPtr q))) :: _) _ _ _ _ _ _) _ => cbn [callee]; rewrite (inv_has _ _ Ok _ _ _ _ _ _ _ I Hq), T end); clear Hq T end.
Lemma raise_runs l a P xs x Y inner outer E F (R : val -> ghost -> list val -> frame -> Prop) : lib P -> lst P xs [x] ->
  nth_error a 2 = Some (VPtr Y) -> P Y (OPair inner outer) -> nth_error a 0 = Some E -> chain P E F -> applicable P inner ->
  (forall b z p P2 ys, sub P P2 -> chain P2 (VPtr p) (Ext p b z :: F) -> puts P2 b outer -> puts P2 z (VPtr Y) -> lst P2 ys [x] ->
    returns inner ys l (update (update a 2 outer) 0 (VPtr p)) P2 (fun _ l2 a2 P3 => throws x l2 a2 P3)) ->
  returns (VPtr 139) xs l a P R.
Proof.
  intros L A N2 HY N0 C Ap H h g P' s e c d I U Ret.
  assert (U0 := U). lift U. clear U. pose proof (sub_refl P') as B0. enter_lib. go. handlers. go.
  eapply c_pair; [inv|assumption|args|]. 
  match goal with J : Inv _ _ _ _ _ |- _ => cbn [callee]; rewrite (inv_has _ _ Ok _ _ _ _ _ _ _ J HY) end.
  go. handlers. go. handlers. go. enter. go. last.
  eapply with_handlers; [assumption|args|exact N2|exact N0|eassumption|]. intros b z pe Pw Uw Chw Bw Zw hw gw Px sw ew cw dw Iw Uv Retw.
  assert (Uc : sub P Px) by (intros q o Hq; apply Uv, Uw, U0, Hq).
  assert (Chx : chain Px (VPtr pe) (Ext pe b z :: F)) by (eapply chain_up; [exact Uv|exact Chw]).
  assert (Bx : puts Px b outer) by (intros l3 a3 P24 U24; apply Bw; eapply sub_trans; eassumption).
  assert (Zx : puts Px z (VPtr Y)) by (intros l3 a3 P24 U24; apply Zw; eapply sub_trans; eassumption).
  clear Ret Chw Bw Zw. lift Uw. clear Uw. lift Uv. clear Uv. drop_old Iw.
  assert (Hx : forall P2 ys, sub Px P2 -> lst P2 ys [x] -> chain P2 (VPtr pe) (Ext pe b z :: F) /\ puts P2 b outer /\ puts P2 z (VPtr Y)).
  { intros P24 ys U24 _. split; [eapply chain_up; eassumption|]. split; intros l3 a3 P25 U25; [apply Bx|apply Zx]; eapply sub_trans; eassumption. }
  pose proof (sub_refl Px) as B1. enter. go.
  eapply c_is_procedure; [inv|assumption|args|]. applies. go.
  match goal with J : Inv _ _ _ _ ?Pn |- Reach.calls _ _ ?ys _ _ _ _ _ _ _ _ =>
    assert (Ys : lst Pn ys [x]) by args; destruct (Hx Pn ys B1 Ys) as (C1 & C2 & C3);
    pose proof (H b z pe Pn ys Uc C1 C2 C3 Ys) as R0 end.
  clear Hx H C1 C2 C3.
  call R0. go. eapply R1; [inv|apply sub_refl|args].
Qed.
Lemma raise_continuable_runs l a P xs x Y inner outer E F (R : val -> ghost -> list val -> frame -> Prop) : lib P -> lst P xs [x] ->
  nth_error a 2 = Some (VPtr Y) -> P Y (OPair inner outer) -> nth_error a 0 = Some E -> chain P E F -> applicable P inner ->
  (forall b z p P2 ys, sub P P2 -> chain P2 (VPtr p) (Ext p b z :: F) -> puts P2 b outer -> puts P2 z (VPtr Y) -> lst P2 ys [x] ->
    returns inner ys l (update (update a 2 outer) 0 (VPtr p)) P2 (fun v l2 a2 P3 => nth_error a2 0 = Some (VPtr p) /\
      forall P4, sub P3 P4 -> R v l2 (update (update a2 0 E) 2 (VPtr Y)) P4)) ->
  returns (VPtr 140) xs l a P R.
Proof.
  intros L A N2 HY N0 C Ap H h g P' s e c d I U Ret.
  assert (U0 := U). lift U. clear U. pose proof (sub_refl P') as B0. enter_lib. go. handlers. go.
  eapply c_pair; [inv|assumption|args|]. 
  match goal with J : Inv _ _ _ _ _ |- _ => cbn [callee]; rewrite (inv_has _ _ Ok _ _ _ _ _ _ _ J HY) end.
  go. handlers. go. handlers. go. enter. go. last.
  eapply with_handlers; [assumption|args|exact N2|exact N0|eassumption|]. intros b z pe Pw Uw Chw Bw Zw hw gw Px sw ew cw dw Iw Uv Retw.
  assert (Uc : sub P Px) by (intros q o Hq; apply Uv, Uw, U0, Hq).
  assert (Chx : chain Px (VPtr pe) (Ext pe b z :: F)) by (eapply chain_up; [exact Uv|exact Chw]).
  assert (Bx : puts Px b outer) by (intros l3 a3 P24 U24; apply Bw; eapply sub_trans; eassumption).
  assert (Zx : puts Px z (VPtr Y)) by (intros l3 a3 P24 U24; apply Zw; eapply sub_trans; eassumption).
  clear Ret Chw Bw Zw. lift Uw. clear Uw. lift Uv. clear Uv. drop_old Iw.
  assert (Hx : forall P2 ys, sub Px P2 -> lst P2 ys [x] -> chain P2 (VPtr pe) (Ext pe b z :: F) /\ puts P2 b outer /\ puts P2 z (VPtr Y)).
  { intros P24 ys U24 _. split; [eapply chain_up; eassumption|]. split; intros l3 a3 P25 U25; [apply Bx|apply Zx]; eapply sub_trans; eassumption. }
  pose proof (sub_refl Px) as B1. enter. go.
  eapply c_is_procedure; [inv|assumption|args|]. applies. go.
  match goal with J : Inv _ _ _ _ ?Pn |- Reach.calls _ _ ?ys _ _ _ _ _ _ _ _ =>
    assert (Ys : lst Pn ys [x]) by args; destruct (Hx Pn ys B1 Ys) as (C1 & C2 & C3);
    pose proof (H b z pe Pn ys Uc C1 C2 C3 Ys) as R0 end.
  clear Hx H C1 C2 C3.
  eapply returns_last; [exact R0|inv| |exact Retw]. exact B1.
Qed.
End Handlers.
