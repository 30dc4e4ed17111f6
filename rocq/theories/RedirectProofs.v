(** Proofs about the default ports (C121): the bindings are restored however a body is left, and the library does what the specification
    says. *)
From Coq Require Import ZArith List Bool Lia.
From Verif Require Import Redirect RedirectSpec.
Import ListNotations.

Definition top (l : list extent) : bindings := match l with [] => [] | x :: _ => inner x end.
Fixpoint chain (l : list extent) : Prop := match l with [] => True | x :: r => outer x = top r /\ chain r end.
Fixpoint descending (n : nat) (l : list extent) : Prop := match l with [] => True | x :: r => mark x < n /\ descending (mark x) r end.
Definition sound (s : state) : Prop := chain (extents s) /\ bound s = top (extents s) /\ descending (pairs s) (extents s).

Lemma descending_weaken : forall l n m, n <= m -> descending n l -> descending m l.
Proof. destruct l as [|x r]; [exact (fun _ _ _ _ => Logic.I)|]. intros n m L [H K]. split; [lia|exact K]. Qed.
Lemma chain_app : forall a b, chain (a ++ b) -> chain b.
Proof. induction a as [|x a IH]; [trivial|]. intros b [_ H]. exact (IH b H). Qed.
Lemma descending_app : forall a b n, descending n (a ++ b) -> descending n b.
Proof. induction a as [|x a IH]; [trivial|]. intros b n [H K]. apply IH in K. eapply descending_weaken; [|exact K]. lia. Qed.
Lemma descending_in : forall l n x, descending n l -> In x l -> mark x < n.
Proof.
  induction l as [|y l IH]; intros n x H I; [destruct I|]. destruct H as [H K], I as [<-|I]; [exact H|]. pose proof (IH _ _ K I). lia.
Qed.
(** Two ends of one list of extents that begin with the same pair are the same *)
Lemma eq_ends : forall a1 l1 a2 l2 n, a1 ++ l1 = a2 ++ l2 -> descending n (a1 ++ l1) -> eq_extents l1 l2 = true -> l1 = l2.
Proof.
  intros a1 l1 a2 l2 n Eq D H. destruct l1 as [|x l1], l2 as [|y l2]; try discriminate H; [reflexivity|]. cbn in H. apply Nat.eqb_eq in H.
  revert a2 n Eq D. induction a1 as [|z a1 IH]; intros [|z2 a2] n Eq D; cbn [app] in *.
  - exact Eq.
  - injection Eq as <- Eq. exfalso. destruct D as [_ D]. rewrite Eq in D. pose proof (descending_in _ _ y D ltac:(apply in_or_app; right; left; reflexivity)). lia.
  - injection Eq as -> Eq. exfalso. destruct D as [_ D]. pose proof (descending_in _ _ x D ltac:(apply in_or_app; right; left; reflexivity)). lia.
  - injection Eq as <- Eq. destruct D as [_ D]. exact (IH a2 (mark z) Eq D).
Qed.
Lemma windup_ok : forall fuel from to s, length from + length to < fuel -> chain from -> chain to ->
  (exists a1 a2 n, a1 ++ from = a2 ++ to /\ descending n (a1 ++ from)) -> bound s = top from ->
  windup fuel from to s = {| log := log s; live := live s; cells := cells s; bound := top to; extents := to; pairs := pairs s |}.
Proof.
  induction fuel as [|fuel IH]; intros from to s L C1 C2 (a1 & a2 & n & Eq & D) B; [lia|]. cbn [windup].
  destruct (eq_extents from to) eqn:Q.
  - pose proof (eq_ends _ _ _ _ _ Eq D Q) as ->. unfold install_extents. cbn. rewrite B. reflexivity.
  - destruct from as [|x from], to as [|y to].
    + discriminate Q.
    + rewrite (IH [] to).
      * reflexivity.
      * cbn in *. lia.
      * exact Logic.I.
      * exact (proj2 C2).
      * exists a1, (a2 ++ [y]), n. split; [rewrite <- app_assoc; exact Eq|exact D].
      * exact B.
    + rewrite (IH from []).
      * reflexivity.
      * cbn in *. lia.
      * exact (proj2 C1).
      * exact Logic.I.
      * exists (a1 ++ [x]), a2, n. rewrite <- app_assoc. split; [exact Eq|exact D].
      * exact (proj1 C1).
    + rewrite (IH from to).
      * reflexivity.
      * cbn in *. lia.
      * exact (proj2 C1).
      * exact (proj2 C2).
      * exists (a1 ++ [x]), (a2 ++ [y]), n. rewrite <- !app_assoc. split; [exact Eq|exact D].
      * exact (proj1 C1).
Qed.
Lemma wind_to_ok : forall to xs s, sound s -> extents s = xs ++ to ->
  wind_to to s = {| log := log s; live := live s; cells := cells s; bound := top to; extents := to; pairs := pairs s |}.
Proof.
  intros to xs s (C & B & D) Eq. apply windup_ok; try assumption; [lia| |].
  - rewrite Eq in C. exact (chain_app _ _ C).
  - exists [], xs, (pairs s). split; [exact Eq|exact D].
Qed.

(** What any program keeps: it adds extents only if it does not return *)
Definition keeps (s : state) (r : outcome * state) : Prop :=
  sound (snd r) /\ pairs s <= pairs (snd r) /\ exists xs, extents (snd r) = xs ++ extents s /\ (forall o, fst r = Done o -> xs = []).
Lemma keeps_trans : forall s o s1 r, keeps s (Done o, s1) -> (sound s1 -> keeps s1 r) -> keeps s r.
Proof.
  intros s o s1 r (S1 & P1 & xs & X1 & D1) H. destruct (H S1) as (S2 & P2 & ys & X2 & D2). rewrite (D1 o eq_refl) in X1. cbn in *.
  split; [exact S2|]. split; [lia|]. exists ys. rewrite X2, X1. split; [reflexivity|exact D2].
Qed.
Lemma keeps_same : forall s o s', sound s -> bound s' = bound s -> extents s' = extents s -> pairs s' = pairs s -> keeps s (o, s').
Proof.
  intros s o s' (C & B & D) Hb He Hp. split; [split; [|split]; cbn; rewrite ?He, ?Hb, ?Hp; assumption|]. cbn. split; [lia|]. exists []. split; [exact He|reflexivity].
Qed.
Lemma keeps_wound : forall s n s', sound s -> sound s' -> pairs s <= pairs s' -> (exists xs, extents s' = xs ++ extents s) ->
  keeps s (Done n, wind_to (extents s) s') /\ wind_to (extents s) s' = {| log := log s'; live := live s'; cells := cells s'; bound := bound s; extents := extents s; pairs := pairs s' |}.
Proof.
  intros s n s' (C & B & D) S' P (xs & X). rewrite (wind_to_ok _ _ _ S' X), <- B. split; [|reflexivity]. split; [split; [exact C|split; [exact B|]]|].
  - cbn. eapply descending_weaken; [exact P|exact D].
  - cbn. split; [exact P|]. exists []. split; reflexivity.
Qed.
Lemma keeps_bind : forall out p body s, sound s -> (forall s, sound s -> keeps s (body s)) -> keeps s (dynamic_bind out p body s).
Proof.
  intros out p body s (C & B & D) H. unfold dynamic_bind, on_return. set (s1 := {| log := log s |}).
  assert (S1 : sound s1) by (unfold s1; split; [|split]; cbn; [split; [exact B|exact C]|reflexivity|split; [lia|exact D]]).
  destruct (H s1 S1) as (S2 & P2 & xs & X2 & D2). destruct (body s1) as [o s2]. cbn in *. destruct o as [o|n o|e].
  - rewrite (D2 o eq_refl) in X2. cbn in X2. rewrite X2. split; [split; [exact C|split; [exact B|]]|].
    + cbn. eapply descending_weaken; [|exact D]. lia.
    + cbn. split; [lia|]. exists []. split; reflexivity.
  - split; [exact S2|]. cbn. split; [lia|]. exists (xs ++ [{| mark := pairs s; inner := (out, length (cells s)) :: bound s; outer := bound s |}]).
    rewrite <- app_assoc. split; [exact X2|discriminate].
  - split; [exact S2|]. cbn. split; [lia|]. exists (xs ++ [{| mark := pairs s; inner := (out, length (cells s)) :: bound s; outer := bound s |}]).
    rewrite <- app_assoc. split; [exact X2|discriminate].
Qed.
Lemma keeps_open : forall fs out path s r s1, sound s -> open_file fs out path s = (r, s1) -> sound s1 /\ bound s1 = bound s /\ extents s1 = extents s /\ pairs s1 = pairs s.
Proof.
  intros fs out path s r s1 H E. unfold open_file in E. destruct (opening fs (log s) out path); injection E as <- <-; repeat split; try apply H.
Qed.
Lemma keeps_from : forall s s1 r, bound s1 = bound s -> extents s1 = extents s -> pairs s1 = pairs s -> keeps s1 r -> keeps s r.
Proof. intros s s1 r Hb He Hp (A & B & xs & X & D). split; [exact A|]. split; [lia|]. exists xs. rewrite <- He. split; assumption. Qed.
Lemma keeps_then : forall s r f, keeps s r -> (forall o s1, sound s1 -> keeps s1 (f o s1)) -> keeps s (on_return r f).
Proof. intros s [[o|n o|e] s1] f H K; [|exact H|exact H]. eapply keeps_trans; [exact H|]. apply K. Qed.

Theorem run_keeps : forall fs p s, sound s -> keeps s (run fs p s).
Proof.
  intros fs. induction p as [vs|n vs|e|c port k IH|port k IH|out k IH|out port k IH|out path k IH|port k IH|port k IH|out port body IHb k IH|out path body IHb k IH
    |out path body IHb k IH|port body IHb k IH|body IHb k IH|body IHb handler IHh k IH]; intros s H; cbn [run].
  - apply keeps_same; reflexivity || exact H.
  - apply keeps_same; reflexivity || exact H.
  - apply keeps_same; reflexivity || exact H.
  - eapply (keeps_from s (record _ s)); [reflexivity..|]. apply IH. exact H.
  - eapply (keeps_from s (record _ s)); [reflexivity..|]. apply IH. exact H.
  - apply IH, H.
  - eapply (keeps_from s (assign _ _ s)); [reflexivity..|]. apply IH. exact H.
  - destruct (open_file fs out path s) as [r s1] eqn:Eq. destruct (keeps_open _ _ _ _ _ _ H Eq) as (S1 & B & X & P). destruct r as [e|q].
    + apply keeps_same; assumption.
    + eapply keeps_from; [exact B|exact X|exact P|]. apply IH, S1.
  - eapply (keeps_from s (close _ s)); [reflexivity..|]. apply IH. exact H.
  - apply IH, H.
  - apply (keeps_then _ _ (fun o s1 => run fs (k (spread o)) s1)); [|intros; apply IH; assumption]. apply keeps_bind; [exact H|exact IHb].
  - apply (keeps_then _ _ (fun o s1 => run fs (k (spread o)) s1)); [|intros; apply IH; assumption]. unfold with_file.
    destruct (open_file fs out path s) as [r s1] eqn:Eq. destruct (keeps_open _ _ _ _ _ _ H Eq) as (S1 & B & X & P). destruct r as [e|q]; [apply keeps_same; assumption|].
    eapply keeps_from; [exact B|exact X|exact P|]. apply keeps_bind; [exact S1|]. intros s2 S2.
    apply (keeps_then _ _ (fun o s3 => (Done o, close (current out s3) s3))); [apply IHb, S2|]. intros o s3 S3. apply keeps_same; reflexivity || exact S3.
  - apply (keeps_then _ _ (fun o s1 => run fs (k (spread o)) s1)); [|intros; apply IH; assumption]. unfold call_with_file.
    destruct (open_file fs out path s) as [r s1] eqn:Eq. destruct (keeps_open _ _ _ _ _ _ H Eq) as (S1 & B & X & P). destruct r as [e|q]; [apply keeps_same; assumption|].
    eapply keeps_from; [exact B|exact X|exact P|].
    apply (keeps_then _ _ (fun o s3 => (Done o, close q s3))); [apply IHb, S1|]. intros o s3 S3. apply keeps_same; reflexivity || exact S3.
  - apply (keeps_then _ _ (fun o s1 => run fs (k (spread o)) s1)); [|intros; apply IH; assumption]. unfold call_with_port.
    apply (keeps_then _ _ (fun o s3 => (Done (values (spread o)), close port s3))); [apply IHb, H|]. intros o s3 S3. apply keeps_same; reflexivity || exact S3.
  - pose proof (IHb s H) as K. destruct (run fs body s) as [[o|[|n] o|e] s1].
    + eapply keeps_trans; [exact K|]. apply IH.
    + destruct K as (S1 & P1 & xs & X1 & _). eapply keeps_trans; [apply (keeps_wound s o s1 H S1 P1); exists xs; exact X1|]. apply IH.
    + destruct K as (S1 & P1 & xs & X1 & _). split; [exact S1|]. split; [exact P1|]. exists xs. split; [exact X1|discriminate].
    + exact K.
  - pose proof (IHb s H) as K. destruct (run fs body s) as [[o|n o|e] s1].
    + eapply keeps_trans; [exact K|]. apply IH.
    + exact K.
    + destruct K as (S1 & P1 & xs & X1 & _). eapply keeps_trans; [apply (keeps_wound s (One 0) s1 H S1 P1); exists xs; exact X1|]. intros S2.
      apply (keeps_then _ _ (fun o s1 => run fs (k (spread o)) s1)); [apply IHh, S2|intros; apply IH; assumption].
Qed.

(** the same for the procedures with a body *)
Lemma keeps_with_body : forall fs out body s, sound s -> keeps s (on_return (run fs body s) (fun o s => (Done o, close (current out s) s))).
Proof. intros fs out body s H. apply keeps_then; [apply run_keeps, H|]. intros o s3 S3. apply keeps_same; reflexivity || exact S3. Qed.
Lemma keeps_with_file : forall fs out path body s, sound s -> keeps s (with_file fs out path (run fs body) s).
Proof.
  intros fs out path body s H. unfold with_file. destruct (open_file fs out path s) as [r s1] eqn:Eq. destruct (keeps_open _ _ _ _ _ _ H Eq) as (S1 & B & X & P).
  destruct r as [e|q]; [apply keeps_same; assumption|]. eapply keeps_from; [exact B|exact X|exact P|]. apply keeps_bind; [exact S1|]. exact (keeps_with_body fs out body).
Qed.
Lemma keeps_call_with_file : forall fs out path body s, sound s -> keeps s (call_with_file fs out path (fun q => run fs (body q)) s).
Proof.
  intros fs out path body s H. unfold call_with_file. destruct (open_file fs out path s) as [r s1] eqn:Eq. destruct (keeps_open _ _ _ _ _ _ H Eq) as (S1 & B & X & P).
  destruct r as [e|q]; [apply keeps_same; assumption|]. eapply keeps_from; [exact B|exact X|exact P|].
  apply keeps_then; [apply run_keeps, S1|]. intros o s3 S3. apply keeps_same; reflexivity || exact S3.
Qed.
Lemma keeps_call_with_port : forall fs port body s, sound s -> keeps s (call_with_port port (fun q => run fs (body q)) s).
Proof. intros fs port body s H. apply keeps_then; [apply run_keeps, H|]. intros o s3 S3. apply keeps_same; reflexivity || exact S3. Qed.

(** ** The library does what the specification says *)
Definition ports_of (s : state) : ports := {| history := log s; status := live s |}.
Definition answer (o : outcome) : result := match o with Done o => Returned (spread o) | Jump n o => Left_by n (spread o) | Fail e => Failed e end.
Definition sees (defaults : bool -> nat) (s : state) : Prop := forall b, nth_error (cells s) (cell (bound s) b) = Some (defaults b).
Definition grown (s s' : state) : Prop := exists cs, cells s' = cells s ++ cs.

Lemma spread_values : forall vs, spread (values vs) = vs.
Proof. intros [|v [|v2 vs]]; reflexivity. Qed.
Lemma update_map : forall p l, update p false l = map (fun i => if i =? p then false else nth i l false) (seq 0 (length l)).
Proof.
  intros p l. revert p. induction l as [|x l IH]; intros p; [destruct p; reflexivity|]. destruct p as [|p]; cbn [update length seq map nth Nat.eqb].
  - f_equal. rewrite <- seq_shift, map_map. cbn [Nat.eqb nth]. clear. induction l as [|y l IH]; [reflexivity|]. cbn [length seq map nth]. f_equal. rewrite <- seq_shift, map_map. exact IH.
  - f_equal. rewrite IH, <- seq_shift, map_map. reflexivity.
Qed.
Lemma close_ports : forall p s, ports_of (close p s) = shut p (ports_of s).
Proof. intros p s. unfold close, shut, ports_of. cbn [log live history status]. destruct (p <? 2); [reflexivity|]. rewrite update_map. reflexivity. Qed.
Lemma sees_current : forall d s out, sees d s -> current out s = d out.
Proof. intros d s out H. unfold current. apply nth_error_nth, H. Qed.
Lemma sees_grown : forall d s s', sees d s -> grown s s' -> bound s' = bound s -> sees d s'.
Proof. intros d s s' H (cs & Hc) Hb b. rewrite Hc, Hb, nth_error_app1; [apply H|]. apply nth_error_Some. rewrite H. discriminate. Qed.
Lemma grown_refl : forall s s', cells s' = cells s -> grown s s'.
Proof. intros s s' H. exists []. rewrite app_nil_r. exact H. Qed.
Lemma grown_trans : forall a b c, grown a b -> grown b c -> grown a c.
Proof. intros a b c (x & X) (y & Y). exists (x ++ y). rewrite Y, X, app_assoc. reflexivity. Qed.
Lemma kept_bound : forall s o s1, sound s -> keeps s (Done o, s1) -> bound s1 = bound s.
Proof. intros s o s1 (_ & B & _) ((_ & B1 & _) & _ & xs & X & D). rewrite (D o eq_refl) in X. cbn in *. rewrite B1, X, B. reflexivity. Qed.

(** the run r of the library from s is the run w of the specification *)
Definition agree (s : state) (r : outcome * state) (w : result * ports) : Prop := w = (answer (fst r), ports_of (snd r)) /\ grown s (snd r).
Lemma agree_then : forall d s r w f g, sound s -> sees d s -> keeps s r -> agree s r w ->
  (forall o s1, sound s1 -> sees d s1 -> agree s1 (f o s1) (g (spread o) (ports_of s1))) ->
  agree s (on_return r f) (after w g).
Proof.
  intros d s [[o|n o|e] s1] w f g S0 V K [-> G] H; [|split; [reflexivity|exact G]..]. cbn in *.
  destruct (H o s1 (proj1 K)) as [A B]; [|].
  - eapply sees_grown; [exact V|exact G|eapply kept_bound; [exact S0|exact K]].
  - split; [exact A|]. eapply grown_trans; [exact G|exact B].
Qed.
Lemma agree_from : forall s s1 r w, cells s1 = cells s -> agree s1 r w -> agree s r w.
Proof. intros s s1 r w H [A (cs & B)]. split; [exact A|]. exists cs. rewrite <- H. exact B. Qed.

Lemma cell_here : forall out c bs, cell ((out, c) :: bs) out = c.
Proof. intros [|] c bs; reflexivity. Qed.
Lemma cell_other : forall out b c bs, Bool.eqb b out = false -> cell ((out, c) :: bs) b = cell bs b.
Proof. intros [|] [|] c bs H; reflexivity || discriminate H. Qed.

Lemma agree_bind : forall d out p body sbody s, sound s -> sees d s ->
  (forall s, sound s -> keeps s (body s)) ->
  (forall s, sound s -> sees (redirect d out p) s -> agree s (body s) (sbody (ports_of s))) ->
  agree s (dynamic_bind out p body s) (sbody (ports_of s)).
Proof.
  intros d out p body sbody s (C & B & D) V K H. unfold dynamic_bind, on_return. set (s1 := {| log := log s |}).
  assert (S1 : sound s1) by (unfold s1; split; [|split]; cbn; [split; [exact B|exact C]|reflexivity|split; [lia|exact D]]).
  assert (V1 : sees (redirect d out p) s1).
  { intros b. unfold redirect. cbn [s1 bound cells]. destruct (Bool.eqb b out) eqn:Q.
    - apply eqb_prop in Q. subst b. rewrite cell_here, nth_error_app2, Nat.sub_diag; [reflexivity|lia].
    - rewrite cell_other by exact Q. rewrite nth_error_app1; [apply V|]. apply nth_error_Some. rewrite V. discriminate. }
  destruct (H s1 S1 V1) as [A (cs & G)]. change (ports_of s1) with (ports_of s) in A. rewrite A. destruct (body s1) as [[o|n o|e] s2]; cbn [fst snd] in *.
  - split; [reflexivity|]. exists ([p] ++ cs). cbn. rewrite G. cbn. rewrite <- app_assoc. reflexivity.
  - split; [reflexivity|]. exists ([p] ++ cs). cbn. rewrite G. cbn. rewrite <- app_assoc. reflexivity.
  - split; [reflexivity|]. exists ([p] ++ cs). cbn. rewrite G. cbn. rewrite <- app_assoc. reflexivity.
Qed.
(** A file that is opened for a body *)
Lemma agree_open : forall fs d out path s f g, sound s -> sees d s ->
  (forall q s1, sound s1 -> sees d s1 -> bound s1 = bound s -> extents s1 = extents s -> agree s1 (f q s1) (g q (ports_of s1))) ->
  agree s (match open_file fs out path s with (inl e, s) => (Fail e, s) | (inr q, s) => f q s end)
    (match opening fs (log s) out path with
     | inl e => (Failed e, ports_of s)
     | inr l => g (length (live s)) {| history := Opened (length (live s)) out path :: log s; status := live s ++ [l] |}
     end).
Proof.
  intros fs d out path s f g S0 V H. unfold open_file. destruct (opening fs (log s) out path) as [e|l]; [split; [reflexivity|apply grown_refl; reflexivity]|].
  set (s1 := {| log := _ |}). eapply (agree_from s s1); [reflexivity|]. apply (H (length (live s)) s1); [exact S0|exact V|reflexivity|reflexivity].
Qed.

Theorem run_does : forall fs p, standard p -> forall d s, sound s -> sees d s ->
  agree s (run fs p s) (does (next fs) (opening fs) p d (ports_of s)).
Proof.
  intros fs p P. induction P as [vs|n vs|e|c port k P IH|port k P IH|out k P IH|out path k P IH|port k P IH|port k P IH|out port body k Pb IHb P IH|out path body k Pb IHb P IH
    |out path body k Pb IHb P IH|port body k Pb IHb P IH|body k Pb IHb P IH|body handler k Pb IHb Ph IHh P IH]; intros d s S0 V; cbn [run does].
  - split; [cbn; rewrite spread_values; reflexivity|apply grown_refl; reflexivity].
  - split; [cbn; rewrite spread_values; reflexivity|apply grown_refl; reflexivity].
  - split; [reflexivity|apply grown_refl; reflexivity].
  - eapply (agree_from s (record _ s)); [reflexivity|]. replace (match port with Some q => q | None => d true end) with (chosen true port s);
      [|destruct port; [reflexivity|exact (sees_current _ _ _ V)]]. apply (IH d (record _ s)); assumption.
  - replace (match port with Some q => q | None => d false end) with (chosen false port s); [|destruct port; [reflexivity|exact (sees_current _ _ _ V)]].
    eapply (agree_from s (record _ s)); [reflexivity|]. apply (IH _ d (record _ s)); assumption.
  - rewrite (sees_current _ _ out V). apply IH; assumption.
  - apply (agree_open fs d out path s (fun q s => run fs (k q) s) (fun q => does (next fs) (opening fs) (k q) d)); [exact S0|exact V|]. intros q s1 S1 V1 _ _. apply IH; assumption.
  - rewrite <- close_ports. eapply (agree_from s (close _ s)); [reflexivity|]. apply IH; assumption.
  - apply IH; assumption.
  - apply (agree_then d s _ _ (fun o s1 => run fs (k (spread o)) s1) (fun vs => does (next fs) (opening fs) (k vs) d)); [exact S0|exact V| | |].
    + apply keeps_bind; [exact S0|]. intros; apply run_keeps; assumption.
    + apply (agree_bind d out port (run fs body) (does (next fs) (opening fs) body (redirect d out port))); [exact S0|exact V| |]; intros; [apply run_keeps|apply IHb]; assumption.
    + intros; apply IH; assumption.
  - assert (A : agree s (with_file fs out path (run fs body) s) (match opening fs (log s) out path with
       | inl e => (Failed e, ports_of s)
       | inr l => after (does (next fs) (opening fs) body (redirect d out (length (live s))) {| history := Opened (length (live s)) out path :: log s; status := live s ++ [l] |})
           (fun vs w => (Returned vs, shut (length (live s)) w))
       end)).
    { unfold with_file. apply (agree_open fs d out path s (fun q => dynamic_bind out q (fun s => on_return (run fs body s) (fun o s => (Done o, close (current out s) s))))
        (fun q w => after (does (next fs) (opening fs) body (redirect d out q) w) (fun vs w => (Returned vs, shut q w)))); [exact S0|exact V|].
      intros q s1 S1 V1 _ _.
      apply (agree_bind d out q _ (fun w => after (does (next fs) (opening fs) body (redirect d out q) w) (fun vs w => (Returned vs, shut q w)))); [exact S1|exact V1|exact (keeps_with_body fs out body)|].
      intros s2 S2 V2. apply (agree_then (redirect d out q)); [exact S2|exact V2|apply run_keeps, S2|apply IHb; assumption|].
      intros o s3 S3 V3. rewrite (sees_current _ _ out V3). unfold redirect. rewrite eqb_reflx. split; [cbn; rewrite close_ports; reflexivity|apply grown_refl; reflexivity]. }
    pose proof (agree_then d s _ _ (fun o => run fs (k (spread o))) (fun vs => does (next fs) (opening fs) (k vs) d) S0 V (keeps_with_file fs out path body s S0) A
      (fun o s1 S1 V1 => IH (spread o) d s1 S1 V1)) as T.
    cbn [history status ports_of]. destruct (opening fs (log s) out path) as [e|l]; [exact T|].
    destruct (does (next fs) (opening fs) body (redirect d out (length (live s))) _) as [[]]; exact T.
  - assert (A : agree s (call_with_file fs out path (fun q => run fs (body q)) s) (match opening fs (log s) out path with
       | inl e => (Failed e, ports_of s)
       | inr l => after (does (next fs) (opening fs) (body (length (live s))) d {| history := Opened (length (live s)) out path :: log s; status := live s ++ [l] |})
           (fun vs w => (Returned vs, shut (length (live s)) w))
       end)).
    { unfold call_with_file. apply (agree_open fs d out path s (fun q s => on_return (run fs (body q) s) (fun o s => (Done o, close q s)))
        (fun q w => after (does (next fs) (opening fs) (body q) d w) (fun vs w => (Returned vs, shut q w)))); [exact S0|exact V|].
      intros q s1 S1 V1 _ _. apply (agree_then d); [exact S1|exact V1|apply run_keeps, S1|apply IHb; assumption|].
      intros o s3 S3 V3. split; [cbn; rewrite close_ports; reflexivity|apply grown_refl; reflexivity]. }
    pose proof (agree_then d s _ _ (fun o => run fs (k (spread o))) (fun vs => does (next fs) (opening fs) (k vs) d) S0 V (keeps_call_with_file fs out path body s S0) A
      (fun o s1 S1 V1 => IH (spread o) d s1 S1 V1)) as T.
    cbn [history status ports_of]. destruct (opening fs (log s) out path) as [e|l]; [exact T|].
    destruct (does (next fs) (opening fs) (body (length (live s))) d _) as [[]]; exact T.
  - assert (A : agree s (call_with_port port (fun q => run fs (body q)) s) (after (does (next fs) (opening fs) (body port) d (ports_of s)) (fun vs w => (Returned vs, shut port w)))).
    { apply (agree_then d); [exact S0|exact V|apply run_keeps, S0|apply IHb; assumption|].
      intros o s3 S3 V3. split; [cbn; rewrite close_ports, spread_values; reflexivity|apply grown_refl; reflexivity]. }
    pose proof (agree_then d s _ _ (fun o => run fs (k (spread o))) (fun vs => does (next fs) (opening fs) (k vs) d) S0 V (keeps_call_with_port fs port body s S0) A
      (fun o s1 S1 V1 => IH (spread o) d s1 S1 V1)) as T.
    destruct (does (next fs) (opening fs) (body port) d (ports_of s)) as [[]]; exact T.
  - destruct (IHb d s S0 V) as [-> G]. pose proof (run_keeps fs body s S0) as K. destruct (run fs body s) as [[o|[|n] o|e] s1]; cbn [fst snd answer] in *.
    + assert (V1 : sees d s1) by (eapply sees_grown; [exact V|exact G|eapply kept_bound; [exact S0|exact K]]).
      destruct (IH (spread o) d s1 (proj1 K) V1) as [A B]. split; [exact A|eapply grown_trans; eassumption].
    + destruct K as (S1 & P1 & xs & X1 & _). destruct (keeps_wound s o s1 S0 S1 P1) as [K2 W]; [exists xs; exact X1|]. rewrite W in *.
      set (s2 := {| log := log s1 |}) in *. assert (G2 : grown s s2) by exact G.
      destruct (IH (spread o) d s2 (proj1 K2)) as [A B]; [eapply sees_grown; [exact V|exact G2|reflexivity]|]. split; [exact A|eapply grown_trans; [exact G2|exact B]].
    + split; [reflexivity|exact G].
    + split; [reflexivity|exact G].
  - destruct (IHb d s S0 V) as [-> G]. pose proof (run_keeps fs body s S0) as K. destruct (run fs body s) as [[o|n o|e] s1]; cbn [fst snd answer] in *.
    + assert (V1 : sees d s1) by (eapply sees_grown; [exact V|exact G|eapply kept_bound; [exact S0|exact K]]).
      destruct (IH (spread o) d s1 (proj1 K) V1) as [A B]. split; [exact A|eapply grown_trans; eassumption].
    + split; [reflexivity|exact G].
    + destruct K as (S1 & P1 & xs & X1 & _). destruct (keeps_wound s (One 0) s1 S0 S1 P1) as [K2 W]; [exists xs; exact X1|]. rewrite W in *.
      set (s2 := {| log := log s1 |}) in *. assert (G2 : grown s s2) by exact G.
      assert (V2 : sees d s2) by (eapply sees_grown; [exact V|exact G2|reflexivity]).
      assert (Z : agree s2 (on_return (run fs (handler e) s2) (fun o => run fs (k (spread o)))) (after (does (next fs) (opening fs) (handler e) d (ports_of s2)) (fun vs => does (next fs) (opening fs) (k vs) d))).
      { apply (agree_then d); [exact (proj1 K2)|exact V2|apply run_keeps, (proj1 K2)|apply IHh; [exact (proj1 K2)|exact V2]|]. intros; apply IH; assumption. }
      destruct Z as [A B]. split; [exact A|eapply grown_trans; [exact G2|exact B]].
Qed.
