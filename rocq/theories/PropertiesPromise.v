(** Property theorems about promises (C43): force and what delay and delay-force (lazy)
    expand to, of library/srfi-45.ss, on their compiled code.

    (lazy e) expands to (promise #f (lambda () e)), (delay e) to
    (promise #f (lambda () (promise #t e))): C107. *)
From Coq Require Import String ZArith List Bool Lia.
From Verif Require Import Machine Generator Evaluate LibraryCode Reach Symbolic SharedMemory PromiseProofs ProgramText TraceProgram PropertiesControl.
Import ListNotations.

(** ** Specification *)
(** The program around the library may hold any number of promises in the memory M, and may
    force them at any time; [holds M p B done value] says that p is a promise with the
    contents B.
    The promises ps of a program, with their contents: no pair is used twice *)
Definition registry (ps : list (nat * nat)) (M : memory) : Prop :=
  (forall p B, In (p, B) ps -> exists d v, holds M p B d v) /\
  (forall p B q Bq, In (p, B) ps -> In (q, Bq) ps -> p <> Bq /\ (B = Bq -> p = q)).
(** Those that are done stay done and keep their value *)
Definition keeps_done (ps : list (nat * nat)) (M M' : memory) : Prop := forall p B d v, In (p, B) ps -> holds M p B d v -> d <> f_ -> holds M' p B d v.

(** ** promise, promise? *)
Theorem C43_new : forall proc ghost own (Inv : ghost -> heap -> list gval -> list val -> frame -> Prop), program proc own Inv ->
  forall aim l M a P xs d v (R : val -> ghost * memory -> list val -> frame -> Prop), lib P -> lst P xs [d; v] ->
  (forall p B M' P2, sub P P2 -> holds M' p B d v -> M p = None -> M B = None -> (forall r, r <> p -> r <> B -> M' r = M r) ->
    M' p = Some (global "<promise>", VPtr B) -> R (VPtr p) (l, M') a P2) ->
  returns proc _ (shared Inv) aim (global "promise") xs (l, M) a P R.
Proof.
  intros proc ghost own Inv (Hp & Ok) aim l M a P xs d v R L A K. change (global "promise") with (VPtr 143).
  apply (promise_new proc Hp _ _ _ Ok aim l M a P xs d v R L A). intros p B P2 U Mp MB N. apply (K p B); try assumption.
  - split; [exact N|]. split; [eexists; apply upd_eq|]. rewrite upd_ne by congruence. apply upd_eq.
  - intros r N1 N2. rewrite !upd_ne by assumption. reflexivity.
  - apply upd_eq.
Qed.
Print Assumptions C43_new.
Theorem C43_predicate : forall proc ghost own (Inv : ghost -> heap -> list gval -> list val -> frame -> Prop), program proc own Inv ->
  forall aim l M a P xs p t y b, lib P -> lst P xs [VPtr p] -> M p = Some (t, y) -> (b = t_ /\ t = global "<promise>") \/ (b = f_ /\ t <> global "<promise>") ->
  returns proc _ (shared Inv) aim (global "promise?") xs (l, M) a P (fun v lm a' _ => v = b /\ lm = (l, M) /\ a' = a).
Proof.
  intros proc ghost own Inv (Hp & Ok) aim l M a P xs p t y b L A E D. change (global "promise?") with (VPtr 144). change (global "<promise>") with (VPtr 142) in D.
  assert (Eb : b = make_bool (val_eqb (VPtr 142) t)).
  { destruct D as [[-> ->]|[-> N]]; [reflexivity|]. destruct t; try reflexivity. cbn [val_eqb]. destruct (Nat.eqb_spec 142 p0) as [<-|]; [contradiction N; reflexivity|reflexivity]. }
  rewrite Eb. eapply (is_promise_runs proc Hp _ _ _ Ok); eassumption.
Qed.
Print Assumptions C43_predicate.

(** ** force *)
(** A promise that is done: its value, and nothing happens *)
Theorem C43_done : forall proc ghost own (Inv : ghost -> heap -> list gval -> list val -> frame -> Prop), program proc own Inv ->
  forall aim l M a P xs p B d v, lib P -> lst P xs [VPtr p] -> holds M p B d v -> d <> f_ ->
  returns proc _ (shared Inv) aim (global "force") xs (l, M) a P (fun w lm a' _ => w = v /\ lm = (l, M) /\ a' = a).
Proof. intros proc ghost own Inv (Hp & Ok) aim l M a P xs p B d v L A H N. change (global "force") with (VPtr 146). eapply (force_done proc Hp _ _ _ Ok); eassumption. Qed.
Print Assumptions C43_done.
(** A promise p that is not done: its thunk is called, in a continuation that is one frame of
    the dump above that of force. It may do anything, also force p. When it returns a promise q:
    if p is not done yet, p takes over what q holds; then p is forced again, in the
    continuation of the first force: a chain of any length needs no more stack or dump
    than its first round *)
Theorem C43_round : forall proc ghost own (Inv : ghost -> heap -> list gval -> list val -> frame -> Prop), program proc own Inv ->
  forall aim l M h g a P xs p B v s e c d, shared Inv (l, M) h g a P -> lib P -> lst P xs [VPtr p] -> holds M p B f_ v ->
  (forall e1 c1 h1 P1, shared Inv (l, M) h1 g a P1 -> sub P P1 ->
    accepts proc _ (shared Inv) aim [VNil] e1 c1 (DS s :: DE e :: DC c :: d) P1 (fun x lm a' P2 => exists q Bq dq vq d' v', x = VPtr q /\
      holds (snd lm) p B d' v' /\ holds (snd lm) q Bq dq vq /\ q <> B /\
      forall M' h2 g2 P3 ys, (d' = f_ /\ M' = taken (snd lm) B q Bq dq vq) \/ (d' <> f_ /\ M' = snd lm) ->
        shared Inv (fst lm, M') h2 g2 a' P3 -> sub P2 P3 -> lst P3 ys [VPtr p] ->
        calls proc (global "force") ys s e c d h2 g2 a' aim) ->
    calls proc v VNil [VNil] e1 c1 (DS s :: DE e :: DC c :: d) h1 g a aim) ->
  calls proc (global "force") xs s e c d h g a aim.
Proof.
  intros proc ghost own Inv (Hp & Ok) aim l M h g a P xs p B v s e c d I L A H K. change (global "force") with (VPtr 146) in *.
  eapply (force_round proc Hp _ _ _ Ok); [exact I|exact L|exact A|exact H|]. intros e1 c1 h1 P1 I1 U1 Acc. apply (K e1 c1 h1 P1 I1 U1).
  intros x lm h2 g2 a2 P2 I2 U2 (q & Bq & dq & vq & d' & v' & -> & Hp' & Hq & N & G). eapply Acc; [exact I2|exact U2|].
  exists q, Bq, dq, vq, d', v'. repeat (split; [first [reflexivity|assumption]|]). intros h3 g3 P3 ys I3 U3 Y. eapply G; [|exact I3|exact U3|exact Y].
  destruct (val_eqb d' f_) eqn:E; [left|right]; (split; [|reflexivity]).
  - destruct d'; try discriminate E. cbn in E. apply Z.eqb_eq in E. subst. reflexivity.
  - intros ->. discriminate E.
Qed.
Print Assumptions C43_round.
(** What p holds then, and that other promises are as before. The promise q loses its tag. *)
Theorem C43_taken : forall M p B d v q Bq dq vq, holds M p B d v -> holds M q Bq dq vq -> q <> B ->
  holds (taken M B q Bq dq vq) p B dq vq /\
  (forall r, r <> B -> r <> q -> taken M B q Bq dq vq r = M r) /\
  (exists y, taken M B q Bq dq vq q = Some (VPtr B, y)).
Proof.
  intros M p B d v q Bq dq vq (Np & (t & Ep) & EB) (Nq & (tq & Eq) & EBq) N. unfold taken. split; [|split].
  - split; [exact Np|]. split; [|rewrite upd_ne by congruence; apply upd_eq].
    destruct (Nat.eq_dec p q) as [->|Ne]; [|exists t; rewrite !upd_ne by assumption; exact Ep].
    exists (VPtr B). rewrite upd_eq. congruence.
  - intros r N1 N2. rewrite !upd_ne by assumption. reflexivity.
  - exists (VPtr Bq). apply upd_eq.
Qed.
Print Assumptions C43_taken.
(** A round changes no promise that is done *)
Theorem C43_keeps : forall ps M p B v q Bq dq vq, registry ps M -> In (p, B) ps -> In (q, Bq) ps -> holds M p B f_ v -> holds M q Bq dq vq ->
  registry ps (taken M B q Bq dq vq) /\ keeps_done ps M (taken M B q Bq dq vq).
Proof.
  intros ps M p B v q Bq dq vq (W1 & W2) Ip Iq Hp Hq. pose proof Hp as (Np & (t & Ep) & EB). pose proof Hq as (Nq & (tq & Eq) & EBq).
  assert (N : q <> B) by (apply (W2 q Bq p B Iq Ip)).
  assert (G : forall r Br d w, In (r, Br) ps -> holds M r Br d w -> Br <> B -> holds (taken M B q Bq dq vq) r Br d w).
  { intros r Br d w Ir (Nr & (tr & Er) & EBr) Ne. assert (r <> B) by (apply (W2 r Br p B Ir Ip)). assert (Br <> q) by (apply not_eq_sym, (W2 q Bq r Br Iq Ir)).
    unfold taken. split; [exact Nr|]. split; [|rewrite !upd_ne by assumption; exact EBr].
    destruct (Nat.eq_dec r q) as [->|Ne']; [rewrite upd_eq; exists (VPtr B); congruence|rewrite !upd_ne by assumption; exists tr; exact Er]. }
  split; [split; [|exact W2]|].
  - intros r Br Ir. destruct (Nat.eq_dec Br B) as [->|Ne].
    + assert (r = p) as -> by (apply (W2 r B p B Ir Ip); reflexivity). exists dq, vq. apply (C43_taken M p B f_ v q Bq dq vq Hp Hq N).
    + destruct (W1 r Br Ir) as (d & w & H). exists d, w. apply G; assumption.
  - intros r Br d w Ir H Nd. apply G; [exact Ir|exact H|]. intros ->. destruct H as (_ & _ & H). congruence.
Qed.
Print Assumptions C43_keeps.

(** p gets done within n rounds: the thunks return promises, and they may make, force and
    update promises, but they keep those that are done *)
Fixpoint forced proc {ghost} (Inv : ghost -> heap -> list gval -> list val -> frame -> Prop) (aim : state -> Prop) (n : nat) (p B : nat)
    (ps : list (nat * nat)) (l : ghost) (M : memory) (a : list val) (P : frame) (R : val -> ghost * memory -> list val -> frame -> Prop) : Prop :=
  registry ps M /\ In (p, B) ps /\
  ((exists d v, holds M p B d v /\ d <> f_ /\ forall P2, sub P P2 -> R v (l, M) a P2) \/
   match n with
   | 0 => False
   | S n => exists v, holds M p B f_ v /\ returns proc _ (shared Inv) aim v VNil (l, M) a P (fun x lm a' P' =>
       exists ps' q Bq dq vq d' v', x = VPtr q /\ incl ps ps' /\ registry ps' (snd lm) /\ keeps_done ps M (snd lm) /\
         In (q, Bq) ps' /\ holds (snd lm) p B d' v' /\ holds (snd lm) q Bq dq vq /\
         forall M' P3, sub P' P3 -> (d' = f_ /\ M' = taken (snd lm) B q Bq dq vq) \/ (d' <> f_ /\ M' = snd lm) -> forced proc Inv aim n p B ps' (fst lm) M' a' P3 R)
   end).
(** Then force returns, p is done and holds the value that force returns, and the promises
    that were done before still are, with the same values *)
Theorem C43_force : forall proc ghost own (Inv : ghost -> heap -> list gval -> list val -> frame -> Prop), program proc own Inv ->
  forall aim n p B ps l M a P xs R, lib P -> lst P xs [VPtr p] -> forced proc Inv aim n p B ps l M a P R ->
  returns proc _ (shared Inv) aim (global "force") xs (l, M) a P (fun v lm a' P' =>
    (exists d, holds (snd lm) p B d v /\ d <> f_) /\ keeps_done ps M (snd lm) /\ R v lm a' P').
Proof.
  intros proc ghost own Inv Pr aim n p B. induction n as [|n IH]; intros ps l M a P xs R L A F; cbn [forced] in F; destruct F as (W & Ip & F).
  - destruct F as [(d & v & H & N & K)|[]]. eapply returns_mono; [|eapply C43_done; eassumption]. cbn beta.
    intros w lm a' P' U (-> & -> & ->). split; [exists d; split; assumption|]. split; [intros r Br d1 w1 _ H1 _; exact H1|apply K, U].
  - destruct F as [(d & v & H & N & K)|(v & H & T)].
    { eapply returns_mono; [|eapply C43_done; eassumption]. cbn beta.
      intros w lm a' P' U (-> & -> & ->). split; [exists d; split; assumption|]. split; [intros r Br d1 w1 _ H1 _; exact H1|apply K, U]. }
    destruct Pr as (Hp & Ok). change (global "force") with (VPtr 146) in *. eapply (force_pending proc Hp _ _ _ Ok); [exact L|exact A|exact H|].
    eapply returns_mono; [|exact T]. cbn beta. intros x [l' M'] a' P' U (ps' & q & Bq & dq & vq & d' & v' & -> & In' & W' & Kd & Iq & Hp' & Hq & G). cbn [fst snd] in *.
    exists q, Bq, dq, vq, d', v'. split; [reflexivity|]. split; [exact Hp'|]. split; [exact Hq|]. split; [apply (proj2 W' q Bq p B Iq), In', Ip|].
    intros P3 ys U3 Y.
    assert (E : forall M2, (d' = f_ /\ M2 = taken M' B q Bq dq vq) \/ (d' <> f_ /\ M2 = M') -> keeps_done ps M M2).
    { intros M2 [(-> & ->)|(_ & ->)]; [|exact Kd]. destruct (C43_keeps ps' M' p B v' q Bq dq vq W' (In' _ Ip) Iq Hp' Hq) as (_ & K2).
      intros r Br d1 w1 Ir Hr Nr. apply K2; [apply In', Ir|apply Kd; assumption|exact Nr]. }
    assert (D : exists M2, (if val_eqb d' f_ then taken M' B q Bq dq vq else M') = M2 /\ ((d' = f_ /\ M2 = taken M' B q Bq dq vq) \/ (d' <> f_ /\ M2 = M'))).
    { eexists. split; [reflexivity|]. destruct (val_eqb d' f_) eqn:Ed; [left|right]; (split; [|reflexivity]); [destruct d'; try discriminate Ed; cbn in Ed; apply Z.eqb_eq in Ed; subst; reflexivity|intros ->; discriminate Ed]. }
    destruct D as (M2 & -> & D). specialize (G M2 P3 U3 D). eapply returns_mono; [|eapply (IH ps' l' M2 a' P3 ys R); [|exact Y|exact G]].
    + cbn beta. intros w lm a2 P4 U4 (Hd & K2 & Rr). split; [exact Hd|]. split; [|exact Rr].
      intros r Br d1 w1 Ir Hr Nr. apply K2; [apply In', Ir|apply (E M2 D); assumption|exact Nr].
    + eapply lib_up; [|exact L]. eapply sub_trans; eassumption.
Qed.
Print Assumptions C43_force.

(** ** What is violated *)
(** (delay-force q) does not share the result with q: when p has taken over the thunk of q, q
    still has it too, and is not even a promise any more. In the sample implementation
    of R7RS, both have the same contents from then on. *)
Theorem C43_shared_refuted : forall M p B d v q Bq dq vq, holds M p B d v -> holds M q Bq dq vq -> p <> q -> B <> Bq -> q <> B -> B <> 142 ->
  holds (taken M B q Bq dq vq) p B dq vq /\ holds (taken M B q Bq dq vq) q Bq dq vq /\
  (exists t y, taken M B q Bq dq vq q = Some (t, y) /\ t <> global "<promise>").
Proof.
  intros M p B d v q Bq dq vq Hp Hq N1 N2 N3 N4. split; [apply (C43_taken M p B d v q Bq dq vq Hp Hq N3)|].
  destruct Hq as (Nq & (tq & Eq) & EBq). unfold taken. split.
  - split; [exact Nq|]. split; [exists (VPtr B); apply upd_eq|rewrite !upd_ne by congruence; exact EBq].
  - exists (VPtr B), (VPtr Bq). split; [apply upd_eq|]. intros H. apply N4. change (global "<promise>") with (VPtr 142) in H. congruence.
Qed.
Print Assumptions C43_shared_refuted.
Open Scope string_scope.
Open Scope list_scope.
(** So the body of a delay runs twice *)
Theorem C43_once_refuted : exists text,
  text = "(define q (promise #f (lambda () (note 'body) (promise #t 'v))))
          (define p (promise #f (lambda () q)))
          (note (force p)) (note (force p)) (note (force q)) (note (force q))
          (note (if (promise? q) 'promise 'other))" /\
  notes text = Some (map text_of ["body"; "v"; "v"; "body"; "v"; "v"; "other"]) /\
  notes text <> Some (map text_of ["body"; "v"; "v"; "v"; "v"; "promise"]).
Proof. eexists. split; [reflexivity|]. split; [vm_compute; reflexivity|vm_compute; discriminate]. Qed.
Print Assumptions C43_once_refuted.

(** ** The theorems apply *)
(** The thunk of (delay 7), in any program with the invariant of C40_program *)
Definition delay_code : code := [ILoadConstant VNil; ILoadConstant (VImm 7); ICons; ILoadConstant t_; ICons; ILoadAbsolute (cell_of "promise"); ITailCall].
Example C43_delay : forall n aim p B q l M a P, lib P -> P q (OClosure delay_code VNil) -> registry [(p, B)] M -> holds M p B f_ (VPtr q) ->
  forced library_primitive (traced n) aim 1 p B [(p, B)] l M a P (fun v _ _ _ => v = VImm 7).
Proof.
  intros n aim p B q l M a P L Hq (W1 & W2) H. assert (Ok := shared_invariant _ _ _ (traced_invariant n)). cbn [forced]. split; [split; assumption|].
  split; [left; reflexivity|]. right. exists (VPtr q). split; [exact H|]. intros h g P' s e c d I U Ret. lift U. clear U. pose proof (sub_refl P') as B0.
  eapply (c_private _ _ _ _ Ok); [exact I|exact Hq|apply L_nil|apply E_nil|]. intros r h1 P1 I1 U1 E1. renew I1 U1. unfold delay_code. go.
  change (VPtr 143) with (global "promise").
  match goal with L : lib ?Pn |- Reach.calls _ _ ?ys _ _ _ _ _ _ _ _ => eapply (returns_last library_primitive _ _ aim); [apply (C43_new _ _ _ _ (C40_program n) aim l M a Pn ys t_ (VImm 7) _ L ltac:(args)); intros pn Bn M' Pz Uz Hz Mp MB Same Tag|inv|exact B0|exact Ret] end.
  destruct H as (Np & (t & Ep) & EB). destruct Hz as (N1 & T1 & E1').
  assert (p <> pn /\ p <> Bn /\ B <> pn /\ B <> Bn) as (A1 & A2 & A3 & A4) by (repeat split; intros ->; congruence).
  assert (Hp : holds M' p B f_ (VPtr q)) by (split; [exact Np|]; split; [exists t; rewrite Same by assumption; exact Ep|rewrite Same by assumption; exact EB]).
  assert (Hn : holds M' pn Bn t_ (VImm 7)) by (split; [exact N1|]; split; assumption).
  assert (W : registry [(p, B); (pn, Bn)] M').
  { split.
    - intros p2 B2 [E|[E|[]]]; injection E as <- <-; eexists _, _; eassumption.
    - intros p2 B2 q2 C2 [E|[E|[]]] [E'|[E'|[]]]; injection E as <- <-; injection E' as <- <-; split; congruence. }
  exists [(p, B); (pn, Bn)], pn, Bn, t_, (VImm 7), f_, (VPtr q). cbn [fst snd]. split; [reflexivity|]. split; [intros x [E|[]]; left; exact E|]. split; [exact W|].
  split; [intros r0 Br d0 w [E|[]] Hr Nd; injection E as <- <-; destruct Hr as (_ & _ & Hr); congruence|]. split; [right; left; reflexivity|]. split; [exact Hp|]. split; [exact Hn|].
  intros M2 P3 U3 [(_ & ->)|(Nf & _)]; [|congruence].
  destruct (C43_keeps _ _ p B (VPtr q) pn Bn t_ (VImm 7) W (or_introl eq_refl) (or_intror (or_introl eq_refl)) Hp Hn) as (W3 & _).
  split; [exact W3|]. split; [left; reflexivity|]. left. exists t_, (VImm 7). split; [apply (C43_taken M' p B f_ (VPtr q) pn Bn t_ (VImm 7) Hp Hn); congruence|]. split; [discriminate|reflexivity].
Qed.
Example C43_ex_delay : notes "(define p (promise #f (lambda () (promise #t (begin (note 'body) 'v)))))
  (note (force p)) (note (force p))" = Some (map text_of ["body"; "v"; "v"]).
Proof. vm_compute. reflexivity. Qed.
(** The thunk forces its own promise: the first value that it gets is its value *)
Example C43_ex_reentrant : notes "(define first #t)
  (define p (promise #f (lambda () (promise #t
    (if first (begin (set! first #f) (note (force p)) 'outer) (begin (note 'inner-body) 'inner))))))
  (note (force p)) (note (force p))" = Some (map text_of ["inner-body"; "inner"; "inner"; "inner"]).
Proof. vm_compute. reflexivity. Qed.
(** A chain of delay-force *)
Example C43_ex_chain : notes "(define (chain l) (promise #f (lambda () (if (pair? l) (begin (note (car l)) (chain (cdr l))) (promise #t 'end)))))
  (define p (chain (list 'a 'b 'c)))
  (note (force p)) (note (force p))" = Some (map text_of ["a"; "b"; "c"; "end"; "end"]).
Proof. vm_compute. reflexivity. Qed.
