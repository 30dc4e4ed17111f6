(** What dynamic-wind and call-with-current-continuation do on the machine. *)
From Coq Require Import String ZArith List Bool Lia.
From Verif Require Import Machine Generator Evaluate LibraryCode Reach Symbolic.
Import ListNotations.

(** ** Specification: extents and what a transfer of control runs *)
(** An extent: its place in the list of extents, the before and the after thunk *)
Record extent := Ext { place : nat; before : val; after : val }.
Inductive chain (P : frame) : val -> list extent -> Prop :=
| Ch_nil : chain P VNil []
| Ch_cons p q b a v F : P p (OPair (VPtr q) v) -> P q (OPair b a) -> chain P v F -> chain P (VPtr p) (Ext p b a :: F).
Definition spine (F : list extent) : val := match F with [] => VNil | x :: _ => VPtr (place x) end.
(** A thunk that is called, and the list of extents that is current then *)
Definition event := (val * val)%type.
(** What the code does: both lists are taken apart at the same pace *)
Fixpoint enter_all (T : list extent) : list event :=
  match T with [] => [] | t :: T => enter_all T ++ [(before t, spine T)] end.
Fixpoint windup (F T : list extent) : list event :=
  if val_eqb (spine F) (spine T) then [] else
  match F with
  | [] => enter_all T
  | f :: F' => (after f, spine F) :: match T with
                                     | [] => windup F' []
                                     | t :: T' => windup F' T' ++ [(before t, spine T')]
                                     end
  end.

Lemma chain_up P P' v F : sub P P' -> chain P v F -> chain P' v F.
Proof. intros S. induction 1; econstructor; eauto. Qed.
Lemma chain_spine P v F : chain P v F -> v = spine F.
Proof. destruct 1; reflexivity. Qed.

(** ** The code *)
Definition callcc_code : code := Eval vm_compute in
  match global "call-with-current-continuation" with
  | VPtr p => match nth_error library_heap p with Some (OClosure c _) => c | _ => [] end
  | _ => []
  end.
Definition windup_code : code := Eval vm_compute in
  match callcc_code with
  | _ :: _ :: _ :: ILoadClosure (ILoadClosure c :: _) :: _ => c
  | _ => []
  end.
(** The closure made by the definition of windup! *)
Definition wind (P : frame) (p : nat) : Prop := exists e r, P p (OClosure windup_code e) /\ env P e ([VPtr p] :: r).
Lemma wind_up P P' p : sub P P' -> wind P p -> wind P' p.
Proof. intros S (e & r & H & E). exists e, r. split; [apply S, H|eapply env_up; eassumption]. Qed.


Ltac lift_more P P' U ::=
  match goal with
  | F : chain P _ _ |- _ => apply (chain_up P P' _ _ U) in F
  | F : wind P _ |- _ => apply (wind_up P P' _ U) in F
  end.

Lemma register (a : list val) i x : length a = 4 -> i < 4 -> nth_error (update a i x) i = Some x.
Proof. intros A L. destruct a as [|? [|? [|? [|? [|? ?]]]]]; cbn in A; try lia. destruct i as [|[|[|[|i]]]]; cbn; try reflexivity; lia. Qed.
Lemma register_ne (a : list val) i j x : i <> j -> nth_error (update a i x) j = nth_error a j.
Proof. revert i j. induction a as [|y a IH]; intros [|i] [|j] N; cbn; try reflexivity; try congruence. apply IH. congruence. Qed.
Lemma update_twice (a : list val) i x y : update (update a i x) i y = update a i y.
Proof. revert i. induction a as [|z a IH]; intros [|i]; cbn; [reflexivity..|]. f_equal. apply IH. Qed.

Section Continuation.
Variable proc : nat -> heap -> val -> presult.
Hypothesis Proc : forall n h xs, n < length procedures -> proc n h xs = library_primitive n h xs.
Variable ghost : Type.
Variable Inv : ghost -> heap -> list gval -> list val -> frame -> Prop.
Variable own : nat -> Prop.
Hypothesis Ok : invariant own Inv.
Hypothesis Own : own 0.
Notation reaches := (reaches proc).
Notation calls := (calls proc).
Variable aim : state -> Prop.
Notation returns := (returns proc ghost Inv aim).

(** The thunks are called one after the other, each with its list of extents in the
    register, and return; then K holds *)
Fixpoint runs (evs : list event) (l : ghost) (a : list val) (P : frame) (K : ghost -> list val -> frame -> Prop) : Prop :=
  match evs with
  | [] => K l a P
  | (x, X) :: evs => returns x VNil l (update a 0 X) P (fun _ l' a' P' => runs evs l' a' P' K)
  end.
Lemma runs_mono evs : forall l a P (K K' : ghost -> list val -> frame -> Prop),
  (forall l' a' P', sub P P' -> K l' a' P' -> K' l' a' P') -> runs evs l a P K -> runs evs l a P K'.
Proof.
  induction evs as [|[x X] evs IH]; intros l a P K K' M H; cbn [runs] in *; [apply M; [apply sub_refl|exact H]|].
  eapply returns_mono; [|exact H]. intros v l' a' P' U. apply IH. intros l2 a2 P2 U2. apply M. eapply sub_trans; eassumption.
Qed.
Lemma runs_app evs evs' : forall l a P K, runs (evs ++ evs') l a P K <-> runs evs l a P (fun l' a' P' => runs evs' l' a' P' K).
Proof.
  induction evs as [|[x X] evs IH]; intros l a P K; cbn [runs app]; [tauto|].
  split; intros H; (eapply returns_mono; [|exact H]; intros v l' a' P' U N; apply IH; exact N).
Qed.
(** What is to be true at the end stays true when the frame grows *)
Definition growing (K : ghost -> list val -> frame -> Prop) : Prop := forall l a P P', sub P P' -> K l a P -> K l a P'.
Lemma runs_up evs : forall l a P P' K, growing K -> sub P P' -> runs evs l a P K -> runs evs l a P' K.
Proof.
  intros l a P P' K G U. destruct evs as [|[x X] evs]; cbn [runs]; [apply G, U|]. apply returns_up, U.
Qed.

(** (current-dynamic-extents), (install-dynamic-extents! x) *)
Lemma current_extents l h g a P X s e c d Q : Inv l h g a P -> lib P -> nth_error a 0 = Some X ->
  (forall h', Inv l h' g a P -> reaches (St (X :: s) e c d h' g a) Q) ->
  calls (VPtr 125) VNil s e c d h g a Q.
Proof. intros I L A K. eapply (c_current _ _ _ _ Ok); [exact I|exact L|reflexivity|exact A|exact K]. Qed.
Lemma install_extents l h g a P x xs s e c d Q : Inv l h g a P -> lib P -> lst P xs [x] ->
  (forall h', Inv l h' g (update a 0 x) P -> nth_error (update a 0 x) 0 = Some x -> reaches (St (x :: s) e c d h' g (update a 0 x)) Q) ->
  calls (VPtr 126) xs s e c d h g a Q.
Proof.
  intros I L A K. eapply (c_install _ _ _ _ Ok); [exact I|exact L|exact Own|lia|reflexivity|exact A|]. intros h' J. apply K; [exact J|].
  apply register; [exact (inv_registers _ _ Ok _ _ _ _ _ I)|lia].
Qed.
Ltac install := eapply install_extents; [inv|assumption|args|]; let h := fresh "h" in let I := fresh "I" in let A := fresh "A" in intros h I A; rewrite ?update_twice in I, A |- *; drop_old I.
Ltac go' := repeat (go; try install).

Lemma runs_start evs l a y P w (K : ghost -> list val -> frame -> Prop) :
  runs evs l a P (fun l' a' P' => K l' (update a' 0 w) P') -> runs evs l (update a 0 y) P (fun l' a' P' => K l' (update a' 0 w) P').
Proof. destruct evs as [|[x X] evs]; cbn [runs]; rewrite update_twice; trivial. Qed.
Definition then_before (x w : val) (K : ghost -> list val -> frame -> Prop) : ghost -> list val -> frame -> Prop :=
  fun l a P => returns x VNil l a P (fun _ l' a' P' => K l' (update a' 0 w) P').
Lemma then_before_growing x w K : growing (then_before x w K).
Proof. intros l a P P' U. apply returns_up, U. Qed.
Ltac nested IH FF TT KK :=
  eapply (IH (length FF + length TT)) with (F := FF) (T := TT) (K := KK); [|apply Nat.le_refl|eassumption|eassumption|eassumption|eassumption|args| | |inv|apply sub_refl|
    let v := fresh "r" in let l := fresh "l" in let h := fresh "h" in let g := fresh "g" in let a := fresh "a" in let P := fresh "P" in let I := fresh "I" in let U := fresh "U" in let H := fresh "R" in
    intros v l h g a P I U H; renew I U].
Ltac lift_more P P' U ::=
  match goal with
  | F : chain P _ _ |- _ => apply (chain_up P P' _ _ U) in F
  | F : wind P _ |- _ => apply (wind_up P P' _ U) in F
  | G : growing ?K, F : ?K ?l ?a P |- _ => apply (G l a P P' U) in F
  end.
Lemma windup_runs n : forall F T l a P p v w xs (K : ghost -> list val -> frame -> Prop), length F + length T <= n ->
  lib P -> wind P p -> chain P v F -> chain P w T -> lst P xs [v; w] -> growing K ->
  runs (windup F T) l a P (fun l' a' P' => K l' (update a' 0 w) P') ->
  returns (VPtr p) xs l a P (fun _ l' a' P' => K l' a' P').
Proof.
  induction n as [n IH] using lt_wf_ind. intros F T l a P p v w xs K N L W CF CT X G H h g P0 s e c d I U Ret.
  assert (H0 : runs (windup F T) l a P0 (fun l' a' P' => K l' (update a' 0 w) P')).
  { eapply runs_up; [|exact U|exact H]. intros l' a' P1 P2 V. apply G, V. }
  clear H. lift U. clear U P. rename P0 into P. pose proof (sub_refl P) as B.
  pose proof W as W0. destruct W as (ew & rw & Hw & Ew).
  pose proof (chain_spine _ _ _ CF) as SF. pose proof (chain_spine _ _ _ CT) as ST.
  destruct (val_eqb v w) eqn:E.
  { assert (W' : windup F T = []) by (subst v w; destruct F, T; cbn [windup]; rewrite E; reflexivity). rewrite W' in H0. cbn [runs] in H0.
    enter. unfold windup_code. go'. rewrite E. cbn [make_bool val_eqb t_ f_ Z.eqb]. go'. finish. assumption. }
  assert (E' : val_eqb (spine F) (spine T) = false) by (rewrite <- SF, <- ST; exact E). clear SF ST.
  inversion CF as [|fp fq fb fa fv F' F1 F2 F3]; subst v F; inversion CT as [|tp tq tb ta tv T' T1 T2 T3]; subst w T.
  all: cbn [windup] in H0; rewrite E' in H0; cbn [after before spine place] in H0; clear E'.
  - discriminate E.
  - cbn [enter_all] in H0. rewrite runs_app in H0. cbn [runs before] in H0.
    assert (J : runs (windup [] T') l a P (fun l' a' P' => then_before tb (VPtr tp) K l' (update a' 0 tv) P')).
    { rewrite (chain_spine _ _ _ T3). destruct T'; exact H0. }
    enter. unfold windup_code. go'. nested IH (@nil extent) T' (then_before tb (VPtr tp) K).
    + cbn [length] in *. lia.
    + apply then_before_growing.
    + apply runs_start. eapply runs_up; [|exact B|exact J]. intros ? ? ? ? V. apply then_before_growing, V.
    + unfold then_before in R. go'. call R. go'. finish. assumption.
  - cbn [runs after] in H0. enter. unfold windup_code. go'. call H0. match goal with J : Inv _ _ _ _ ?P1 |- _ => pose proof (sub_refl P1) as B1 end. go'. nested IH F' (@nil extent) (fun l b P => K l (update b 0 VNil) P).
    + cbn [length] in *. lia.
    + intros ? ? ? ? V. apply G, V.
    + eapply runs_up; [|exact B1|]; [intros ? ? ? ? V; apply G, V|]. eapply runs_mono; [|exact R]. intros ? ? ? _ V. rewrite update_twice. exact V.
    + go'. finish. assumption.
  - cbn [runs] in H0. enter. unfold windup_code. go'. cbn [val_eqb] in E |- *. rewrite E. go'. call H0. match goal with J : Inv _ _ _ _ ?P1 |- _ => pose proof (sub_refl P1) as B1 end. go'.
    rewrite runs_app in R. cbn [runs] in R. rewrite <- (chain_spine _ _ _ T3) in R. nested IH F' T' (then_before tb (VPtr tp) K).
    + cbn [length] in *. lia.
    + apply then_before_growing.
    + eapply runs_up; [|exact B1|exact R]. intros ? ? ? ? V. apply then_before_growing, V.
    + unfold then_before in R0. go'. call R0. go'. finish. assumption.
Qed.

(** ** The escape procedure *)
Definition escape_code : code := Eval vm_compute in
  match callcc_code with
  | _ :: _ :: _ :: ILoadClosure [_; _; _; _; _; _; _; _; ILoadClosure [_; ILoadClosure [_; ILoadClosure c; _; _; _]; _]; _] :: _ => c
  | _ => []
  end.
Definition escape (P : frame) (k : val) (T : list extent) (s : list val) (e : val) (c : code) (d : dump) : Prop :=
  exists pk ek pc pw w r e0, k = VPtr pk /\ P pk (OClosure escape_code ek) /\ env P ek ([VPtr pc] :: [w] :: [VPtr pw] :: r) /\
    P pc (OContinuation [] e0 [IReturn] (DS s :: DE e :: DC c :: d)) /\ wind P pw /\ chain P w T.
Lemma escape_up P P' k T s e c d : sub P P' -> escape P k T s e c d -> escape P' k T s e c d.
Proof.
  intros U (pk & ek & pc & pw & w & r & e0 & E & H1 & H2 & H3 & H4 & H5). exists pk, ek, pc, pw, w, r, e0.
  split; [exact E|]. split; [apply U, H1|]. split; [eapply env_up; eassumption|]. split; [apply U, H3|]. split; [eapply wind_up; eassumption|eapply chain_up; eassumption].
Qed.

(** The program goes on in the state s, e, c, d with the value v *)
Definition resumed (v : val) (s : list val) (e : val) (c : code) (d : dump) : ghost -> list val -> frame -> Prop :=
  fun l a P => forall h g P', Inv l h g a P' -> sub P P' -> reaches (St (v :: s) e c d h g a) aim.
Lemma resumed_growing v s e c d : growing (resumed v s e c d).
Proof. intros l a P P' U H h g P2 I V. eapply H; [exact I|eapply sub_trans; eassumption]. Qed.
Lemma escape_runs l h g a P k T F xs v X s0 e0 c0 d0 s e c d :
  Inv l h g a P -> lib P -> escape P k T s0 e0 c0 d0 -> lst P xs [v] -> nth_error a 0 = Some X -> chain P X F ->
  runs (windup F T) l a P (fun l' a' P' => resumed v s0 e0 c0 d0 l' (update a' 0 (spine T)) P') ->
  calls k xs s e c d h g a aim.
Proof.
  intros I L (pk & ek & pc & pw & w & r & e1 & -> & H1 & H2 & H3 & W & C) A N CF H. pose proof (sub_refl P) as B.
  rewrite <- (chain_spine _ _ _ C) in H. enter. unfold escape_code. go'.
  eapply current_extents; [inv|assumption|eassumption|]. intros hc Ic. drop_old Ic. go'.
  eapply (windup_runs _ F T) with (K := resumed v s0 e0 c0 d0); [apply Nat.le_refl|eassumption|eassumption|eassumption|eassumption|args|apply resumed_growing| |inv|apply sub_refl|].
  { eapply runs_up; [|exact B|exact H]. intros ? ? ? ? V. apply resumed_growing, V. }
  intros u l' h' g' a' P' I' U' R. apply (resumed_growing _ _ _ _ _ _ _ _ _ (sub_refl P')) in R.
  renew I' U'. pose proof (sub_refl P') as B1. go'.
  eapply (c_continuation _ _ _ _ Ok); [inv|eassumption|args|]. one. eapply R; [inv|assumption].
Qed.

(** ** call-with-current-continuation *)
Lemma callcc_runs l h g a P f xs X T s e c d Q :
  Inv l h g a P -> lib P -> lst P xs [f] -> nth_error a 0 = Some X -> chain P X T ->
  (forall k ks h' P', Inv l h' g a P' -> sub P P' -> escape P' k T s e c d -> lst P' ks [k] -> calls f ks s e c d h' g a Q) ->
  calls (VPtr 128) xs s e c d h g a Q.
Proof.
  intros I L A N C K. pose proof (sub_refl P) as B. enter_lib. do 2 one.
  eapply (r_cons_new proc _ Inv own Ok); [inv|]. intros q hq Pq Iq Uq Hq New.
  match goal with J : env ?P' ?e' _ |- _ => rename J into E0; rename e' into ev; rename P' into P0 end.
  match goal with J : Inv _ _ _ _ P0 |- _ => clear J end.
  one. one. eapply (c_closure proc _ Inv own Ok); [inv|eassumption|]. intros r hr Pr Ir Ur Hr. renew Ir Ur. one.
  match goal with J : Inv _ ?h' _ _ ?P', H : ?P' ?p (OClosure _ (VPtr r)) |- _ => rename J into Is; rename P' into Ps; rename p into pw; rename H into Hw end.
  eapply (r_store proc _ Inv own Ok); [exact Is|reflexivity|exact Hr|exact Hq|]. intros hs P3 I3 Keep Hq3.
  assert (Hw3 : P3 pw (OClosure windup_code (VPtr r))).
  { apply Keep; [exact Hw|]. intros ->. apply (inv_has _ _ Ok _ _ _ _ _ _ _ Is) in Hw. apply (inv_has _ _ Ok _ _ _ _ _ _ _ Is) in Hq. congruence. }
  assert (Hr3 : P3 r (OPair (VPtr q) ev)).
  { apply Keep; [exact Hr|]. intros ->. apply (inv_has _ _ Ok _ _ _ _ _ _ _ Is) in Hr. apply (inv_has _ _ Ok _ _ _ _ _ _ _ Is) in Hq. congruence. }
  assert (U3 : sub P0 P3).
  { intros x o Hx. apply Keep; [match goal with V : sub P0 Ps |- _ => apply V, Hx end|eapply New, Hx]. }
  clear Keep Hw Hr Hq Is. repeat match goal with V : sub _ Ps |- _ => clear V | H : Ps _ _ |- _ => clear H end.
  clear dependent New. lift U3. clear U3.
  assert (E3 : env P3 (VPtr r) [[VPtr pw]; [f]]) by (econstructor; [exact Hr3|args|assumption]).
  assert (W3 : wind P3 pw) by (exists (VPtr r), [[f]]; split; assumption).
  clear Hq3 Hr3 Hw3. go.
  eapply current_extents; [inv|assumption|eassumption|]. intros hc Ic. drop_old Ic. go. enter.
  eapply (r_continuation proc _ Inv own Ok); [inv|]. intros pc qc hk Pk Ik Uk Hpc Hqc. renew Ik Uk. go. enter. go.
  eapply K; [eassumption|..].
  - assumption.
  - eexists _, _, _, _, _, _, _. split; [reflexivity|]. split; [eassumption|]. split; [eassumption|]. split; [eassumption|]. split; eassumption.
  - args.
Qed.

(** ** dynamic-wind *)
Lemma dynamic_wind_runs l a P F X xs x y z (R : val -> ghost -> list val -> frame -> Prop) :
  lib P -> lst P xs [x; y; z] -> nth_error a 0 = Some X -> chain P X F ->
  returns x VNil l a P (fun _ l1 a1 P1 => nth_error a1 0 = Some X /\
    forall p P2, sub P1 P2 -> chain P2 (VPtr p) (Ext p x z :: F) ->
    returns y VNil l1 (update a1 0 (VPtr p)) P2 (fun v l2 a2 P3 => nth_error a2 0 = Some (VPtr p) /\
      returns z VNil l2 (update a2 0 X) P3 (fun _ l3 a3 P4 => R v l3 a3 P4))) ->
  returns (VPtr 127) xs l a P R.
Proof.
  intros L A N C H h g P' s e c d I U Ret. lift U. clear U. pose proof (sub_refl P') as B.
  enter_lib. go. eapply H; [inv|apply sub_refl|].
  intros v1 l1 h1 g1 a1 P1 I1 U1 (N1 & H1). clear H N. renew I1 U1. drop_old I1.
  pose proof (sub_refl P1) as B1. go.
  eapply current_extents; [inv|assumption|eassumption|]. intros hc Ic. drop_old Ic. go.
  install. go.
  match goal with |- calls _ _ _ _ _ _ _ _ (update _ 0 (VPtr ?p)) _ => rename p into pp end.
  match goal with J : Inv _ _ _ _ ?Px |- _ => assert (C' : chain Px (VPtr pp) (Ext pp x z :: F)) by (econstructor; eassumption) end.
  pose proof (H1 pp _ B1 C') as Hy. clear H1 B1.
  eapply Hy; [inv|apply sub_refl|]. intros v l2 hv g2 a2 Pv Iv Uv (N2 & Hz). clear Hy N1. renew Iv Uv. drop_old Iv.
  go. enter. go.
  eapply current_extents; [inv|assumption|eassumption|]. intros hc' Ic'. drop_old Ic'. go'.
  eapply Hz; [inv|apply sub_refl|]. intros v3 l3 hz g3 a3 Pz Iz Uz HR. renew Iz Uz. drop_old Iz.
  go. finish. exact HR.
Qed.
End Continuation.
