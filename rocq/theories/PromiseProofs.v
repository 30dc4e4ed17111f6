(** What the promises of library/srfi-45.ss do on the machine. *)
From Coq Require Import String ZArith List Bool Lia.
From Verif Require Import Machine Generator Evaluate LibraryCode Reach Symbolic SharedMemory.
Import ListNotations.

(** A promise p with the contents B: whether it is done, and its value or the thunk *)
Definition holds (M : memory) (p B : nat) (done value : val) : Prop :=
  p <> B /\ (exists t, M p = Some (t, VPtr B)) /\ M B = Some (done, value).
(** What (promise-update! q p) makes of the memory: B are the contents of p, Bq those of q *)
Definition taken (M : memory) (B q Bq : nat) (done value : val) : memory :=
  upd (upd M B (done, value)) q (VPtr B, VPtr Bq).

Section Promises.
Variable proc : nat -> heap -> val -> presult.
Hypothesis Proc : forall n h xs, n < length procedures -> proc n h xs = library_primitive n h xs.
Variable ghost0 : Type.
Variable Inv0 : ghost0 -> heap -> list gval -> list val -> frame -> Prop.
Variable own : nat -> Prop.
Hypothesis Ok0 : invariant own Inv0.
Variable aim : state -> Prop.
Notation ghost := (ghost0 * memory)%type.
Notation Inv := (shared Inv0).
Let Ok : invariant own Inv := shared_invariant _ _ _ Ok0.
Notation returns := (returns proc ghost Inv aim).
Notation accepts := (accepts proc ghost Inv aim).
Notation reaches := (reaches proc).
Notation calls := (calls proc).

(** (promise done? value) *)
Lemma promise_new l M a P xs d v (R : val -> ghost -> list val -> frame -> Prop) : lib P -> lst P xs [d; v] ->
  (forall p B P2, sub P P2 -> M p = None -> M B = None -> p <> B -> R (VPtr p) (l, upd (upd M B (d, v)) p (VPtr 142, VPtr B)) a P2) ->
  returns (VPtr 143) xs (l, M) a P R.
Proof.
  intros L A K h g P' s e c d0 I U Ret. pose proof (fun p B => K p B P' U) as K'. clear K. lift U. clear U. pose proof (sub_refl P') as B0. enter_lib. repeat one.
  eapply (c_new _ Proc _ _ _ Ok); [inv|assumption|args|]. intros B hB PB IB UB HB FB.
  assert (F1 : forall r o, P' r o -> r <> B) by (intros r o Hr; eapply FB, B0, Hr). clear FB. renew IB UB. repeat one.
  eapply (c_new _ Proc _ _ _ Ok); [inv|assumption|args|]. intros pp hp Pp Ip Up Hp Fp.
  assert (F2 : forall r o, P' r o -> r <> pp) by (intros r o Hr; eapply Fp, B0, Hr).
  assert (N : pp <> B) by (intros ->; eapply Fp; [exact HB|reflexivity]).
  clear Fp. renew Ip Up.
  destruct (shared_add _ _ _ Ok0 _ _ _ _ _ _ (fun q o => P' q o \/ (q = pp /\ o = OPair (VPtr 142) (VPtr B))) B d v Ip HB) as (E1 & I1).
  { intros q o [Hq|[-> ->]]; [apply B0, Hq|exact Hp]. }
  { intros r o [Hq|[-> ->]]; [eapply F1, Hq|exact N]. }
  destruct (shared_add _ _ _ Ok0 _ _ _ _ _ _ P' pp (VPtr 142) (VPtr B) I1) as (E2 & I2).
  { right. auto. }
  { intros q o Hq. left. exact Hq. }
  { exact F2. }
  rewrite upd_ne in E2 by exact N. eapply Ret; [exact I2|apply sub_refl|]. apply K'; assumption.
Qed.
(** (promise? x) *)
Lemma is_promise_runs l M a P xs p t y : lib P -> lst P xs [VPtr p] -> M p = Some (t, y) ->
  returns (VPtr 144) xs (l, M) a P (fun v lm a' _ => v = make_bool (val_eqb (VPtr 142) t) /\ lm = (l, M) /\ a' = a).
Proof.
  intros L A E h g P' s e c d I U Ret. lift U. clear U. pose proof (sub_refl P') as B0. enter_lib. repeat one.
  eapply (m_pair _ Proc _ _ _ Ok0); [inv|assumption|args|exact E|]. repeat one.
  eapply (m_car _ Proc _ _ _ Ok0); [inv|assumption|args|exact E|]. go. finish. auto.
Qed.
(** (promise-update! q p) *)
Lemma update_runs l M a P xs p q B Bq d v dq vq : lib P -> lst P xs [VPtr q; VPtr p] -> holds M p B d v -> holds M q Bq dq vq -> q <> B ->
  returns (VPtr 145) xs (l, M) a P (fun _ lm a' _ => lm = (l, taken M B q Bq dq vq) /\ a' = a).
Proof.
  intros L A (Np & (t & Ep) & EB) (Nq & (tq & Eq) & EBq) N h g P' s e c d0 I U Ret. lift U. clear U. pose proof (sub_refl P') as B0. enter_lib. repeat one.
  eapply (m_cadr _ Proc _ _ _ Ok0); [inv|assumption|args|exact Eq|exact EBq|]. repeat one.
  eapply (m_cdr _ Proc _ _ _ Ok0); [inv|assumption|args|exact Ep|]. repeat one.
  eapply (m_set_car _ Proc _ _ _ Ok0); [inv|assumption|args|exact EB|]. intros ha Ia. drop_old Ia. repeat one.
  assert (EBq1 : upd M B (dq, v) Bq = Some (dq, vq)).
  { destruct (Nat.eq_dec Bq B) as [->|Ne]; [rewrite upd_eq; congruence|rewrite upd_ne by exact Ne; exact EBq]. }
  eapply (m_cddr _ Proc _ _ _ Ok0); [inv|assumption|args|rewrite upd_ne by exact N; exact Eq|exact EBq1|]. repeat one.
  eapply (m_cdr _ Proc _ _ _ Ok0); [inv|assumption|args|rewrite upd_ne by exact Np; exact Ep|]. repeat one.
  eapply (m_set_cdr _ Proc _ _ _ Ok0); [inv|assumption|args|apply upd_eq|]. intros hb Ib. drop_old Ib. repeat one.
  eapply (m_cdr _ Proc _ _ _ Ok0); [inv|assumption|args|rewrite !upd_ne by exact Np; exact Ep|]. repeat one.
  eapply (m_set_car _ Proc _ _ _ Ok0); [inv|assumption|args|rewrite !upd_ne by exact N; exact Eq|]. intros hc Ic. drop_old Ic.
  eapply Ret; [|exact B0|split; reflexivity]. eapply shared_same; [exact Ok0| |exact Ic].
  intros r. unfold taken, upd. destruct (r =? q); [reflexivity|]. destruct (r =? B); reflexivity.
Qed.
(** (force p), p is done *)
Lemma force_done l M a P xs p B d v : lib P -> lst P xs [VPtr p] -> holds M p B d v -> d <> f_ ->
  returns (VPtr 146) xs (l, M) a P (fun w lm a' _ => w = v /\ lm = (l, M) /\ a' = a).
Proof.
  intros L A (Np & (t & Ep) & EB) N h g P' s e c d0 I U Ret. lift U. clear U. pose proof (sub_refl P') as B0. enter_lib. repeat one.
  eapply (m_cadr _ Proc _ _ _ Ok0); [inv|assumption|args|exact Ep|exact EB|]. repeat one.
  assert (F : val_eqb d f_ = false) by (destruct d; try reflexivity; cbn; apply Z.eqb_neq; intros ->; apply N; reflexivity). rewrite F.
  repeat one. eapply (m_cddr _ Proc _ _ _ Ok0); [inv|assumption|args|exact Ep|exact EB|]. finish. auto.
Qed.
(** (force p), p is not done: one round. The thunk is called with one frame of the dump
    above that of the caller *)
Lemma force_round l M h g a P xs p B v s e c d : Inv (l, M) h g a P -> lib P -> lst P xs [VPtr p] -> holds M p B f_ v ->
  (forall e1 c1 h1 P1, Inv (l, M) h1 g a P1 -> sub P P1 ->
    accepts [VNil] e1 c1 (DS s :: DE e :: DC c :: d) P1 (fun x lm a' P2 => exists q Bq dq vq d' v', x = VPtr q /\
      holds (snd lm) p B d' v' /\ holds (snd lm) q Bq dq vq /\ q <> B /\
      forall h2 g2 P3 ys, Inv (fst lm, if val_eqb d' f_ then taken (snd lm) B q Bq dq vq else snd lm) h2 g2 a' P3 -> sub P2 P3 -> lst P3 ys [VPtr p] ->
        calls (VPtr 146) ys s e c d h2 g2 a' aim) ->
    calls v VNil [VNil] e1 c1 (DS s :: DE e :: DC c :: d) h1 g a aim) ->
  calls (VPtr 146) xs s e c d h g a aim.
Proof.
  intros I L A (Np & (t & Ep) & EB) K. pose proof (sub_refl P) as B0. enter_lib. repeat one.
  eapply (m_cadr _ Proc _ _ _ Ok0); [inv|assumption|args|exact Ep|exact EB|]. repeat one.
  eapply (m_cddr _ Proc _ _ _ Ok0); [inv|assumption|args|exact Ep|exact EB|]. repeat one.
  eapply K; [inv|exact B0|]. intros x [l' M'] h' g' a' Pt It Ut (q & Bq & dq & vq & d' & v' & -> & Hp & Hq & N & G). cbn [fst snd] in *.
  renew It Ut. clear K. pose proof (sub_refl Pt) as B2. go. enter. repeat one.
  pose proof Hp as (_ & (t' & Ep') & EB').
  eapply (m_cadr _ Proc _ _ _ Ok0); [inv|assumption|args|exact Ep'|exact EB'|]. repeat one.
  eapply (m_not _ Proc _ _ _ Ok0); [inv|assumption|args|]. destruct (val_eqb d' f_) eqn:Ed; cbn [make_bool]; repeat one.
  - match goal with L : lib ?Pn |- Reach.calls _ _ ?ys _ _ _ _ _ _ _ _ => pose proof (update_runs l' M' a' Pn ys p q B Bq d' v' dq vq L ltac:(args) Hp Hq N) as R0 end.
    eapply R0; [inv|apply sub_refl|].
    intros r lm hu gu au Pu Iu Uu (-> & ->). renew Iu Uu. go. eapply G; [inv|assumption|args].
  - go. eapply G; [inv|assumption|args].
Qed.
Lemma force_pending l M a P xs p B v (R : val -> ghost -> list val -> frame -> Prop) : lib P -> lst P xs [VPtr p] -> holds M p B f_ v ->
  returns v VNil (l, M) a P (fun x lm a' P2 => exists q Bq dq vq d' v', x = VPtr q /\
    holds (snd lm) p B d' v' /\ holds (snd lm) q Bq dq vq /\ q <> B /\
    forall P3 ys, sub P2 P3 -> lst P3 ys [VPtr p] -> returns (VPtr 146) ys (fst lm, if val_eqb d' f_ then taken (snd lm) B q Bq dq vq else snd lm) a' P3 R) ->
  returns (VPtr 146) xs (l, M) a P R.
Proof.
  intros L A Hp H h g P' s e c d I U Ret. eapply force_round; [exact I|eapply lib_up; eassumption|eapply lst_up; eassumption|exact Hp|].
  intros e1 c1 h1 P1 I1 U1 K. eapply H; [exact I1|eapply sub_trans; eassumption|].
  intros x lm h2 g2 a2 P2 I2 U2 (q & Bq & dq & vq & d' & v' & -> & Hp' & Hq & N & G). eapply K; [exact I2|exact U2|].
  exists q, Bq, dq, vq, d', v'. split; [reflexivity|]. split; [exact Hp'|]. split; [exact Hq|]. split; [exact N|].
  intros h3 g3 P3 ys I3 U3 Y. eapply (returns_last proc ghost Inv aim); [apply (G P3 ys U3 Y)|exact I3| |exact Ret].
  eapply sub_trans; [exact U1|]. eapply sub_trans; eassumption.
Qed.
End Promises.
