(** A program around the library to which the theorems about it apply: thunks that
    write down in register 3 that they were called. *)
From Coq Require Import ZArith List Bool Lia.
From Verif Require Import Machine Generator Evaluate LibraryCode Reach Symbolic ContinuationProofs.
Import ListNotations.

(** The code of (lambda () (install 3 (cons i (current 3)))), with cons open-coded *)
Definition logger_code (i : nat) : code := [ICurrent 3; ILoadConstant (VImm (Z.of_nat i)); ICons; IInstall 3; IReturn].
(** The thunks are behind the objects of the library *)
Definition first_logger : nat := Eval vm_compute in length library_heap.
Definition logger (i : nat) : val := VPtr (first_logger + i).
Definition number_of (x : val) : val := match x with VPtr p => VImm (Z.of_nat (p - first_logger)) | _ => VNil end.
(** A list at the places D *)
Inductive at_places (h : heap) : val -> list nat -> list val -> Prop :=
| At_nil : at_places h VNil [] []
| At_cons p x v D xs : nth_error h p = Some (OPair x v) -> at_places h v D xs -> at_places h (VPtr p) (p :: D) (x :: xs).
(** Register 3 lists the numbers of the thunks that were called, the latest first *)
Record traced (n : nat) (l : list event) (h : heap) (g : list gval) (a : list val) (P : frame) : Prop := {
  tr_has q o : P q o -> nth_error h q = Some o;
  tr_loggers i : i < n -> nth_error h (first_logger + i) = Some (OClosure (logger_code i) VNil);
  tr_cells i v : nth_error (cells library_env) i = Some (GVal v) -> nth_error g i = Some (GVal v);
  tr_registers : length a = 4;
  tr_trace : exists v D, nth_error a 3 = Some v /\ at_places h v D (rev (map (fun ev => number_of (fst ev)) l)) /\ (forall q o, In q D -> ~ P q o) }.

Lemma at_app h v D xs o : at_places h v D xs -> at_places (h ++ [o]) v D xs.
Proof. induction 1; [constructor|]. econstructor; [|eassumption]. rewrite nth_error_app1; [assumption|]. apply nth_error_Some. congruence. Qed.
Lemma at_lt h v D xs : at_places h v D xs -> forall q, In q D -> q < length h.
Proof. induction 1 as [|p x v D xs H A IH]; [intros q []|]. intros q [<-|Hq]; [apply nth_error_Some; congruence|auto]. Qed.
Lemma nth_update_ne {A} (l : list A) i j x : i <> j -> nth_error (update l i x) j = nth_error l j.
Proof. revert i j. induction l as [|y l IH]; intros [|i] [|j] N; cbn; try reflexivity; try lia. apply IH. lia. Qed.
Lemma nth_update_eq {A} (l : list A) i x y : nth_error l i = Some y -> nth_error (update l i x) i = Some x.
Proof. apply update_at. Qed.
Lemma update_len {A} (l : list A) i x : length (update l i x) = length l.
Proof. revert i. induction l as [|y l IH]; intros [|i]; cbn; auto. Qed.
Lemma at_update h v D xs q o : at_places h v D xs -> ~ In q D -> at_places (update h q o) v D xs.
Proof.
  induction 1 as [|p x v D xs H A IH]; intros N; [constructor|]. econstructor; [|apply IH; intros Hq; apply N; right; exact Hq].
  rewrite nth_update_ne; [exact H|]. intros ->. apply N. left. reflexivity.
Qed.

Lemma traced_invariant n : invariant (fun i => i < 3) (traced n).
Proof.
  split.
  - intros l h g a P q o T H. exact (tr_has _ _ _ _ _ _ T q o H).
  - intros l h g a P o T. destruct T as [Th Tl Tc Tr (v & D & V & At & N)]. split.
    + intros q o' [H|[-> ->]].
      * rewrite nth_error_app1; [apply Th, H|]. apply nth_error_Some. rewrite (Th _ _ H). discriminate.
      * rewrite nth_error_app2, Nat.sub_diag by lia. reflexivity.
    + intros i Hi. rewrite nth_error_app1; [apply Tl, Hi|]. apply nth_error_Some. rewrite (Tl _ Hi). discriminate.
    + exact Tc.
    + exact Tr.
    + exists v, D. split; [exact V|]. split; [apply at_app, At|]. intros q o' Hq [H|[E _]]; [exact (N q o' Hq H)|].
      pose proof (at_lt _ _ _ _ At q Hq). lia.
  - intros l h g a P P' S T. destruct T as [Th Tl Tc Tr (v & D & V & At & N)]. split; auto.
    exists v, D. split; [exact V|]. split; [exact At|]. intros q o Hq H. exact (N q o Hq (S q o H)).
  - intros l h g a P q x y x' y' T H. destruct T as [Th Tl Tc Tr (v & D & V & At & N)]. pose proof (Th _ _ H) as Hq. split.
    + intros r o [[Nr Hr]|[-> ->]]; [rewrite nth_update_ne by congruence; apply Th, Hr|eapply nth_update_eq; exact Hq].
    + intros i Hi. rewrite nth_update_ne; [apply Tl, Hi|]. intros ->. rewrite (Tl i Hi) in Hq. discriminate Hq.
    + exact Tc.
    + exact Tr.
    + exists v, D. split; [exact V|]. split; [apply at_update; [exact At|]; intros Hin; exact (N q _ Hin H)|].
      intros r o Hr [[_ H']|[-> _]]; [exact (N r o Hr H')|exact (N q _ Hr H)].
  - intros l h g a P i x Hi T. destruct T as [Th Tl Tc Tr (v & D & V & At & N)]. split; auto.
    + rewrite update_len. exact Tr.
    + exists v, D. split; [|split; assumption]. rewrite nth_update_ne by lia. exact V.
  - intros l h g a P i v T. apply (tr_cells _ _ _ _ _ _ T).
  - intros l h g a P T. exact (tr_registers _ _ _ _ _ _ T).
Qed.

(** A thunk that was called is in the list, with the list of extents that was current *)
Lemma logger_returns proc aim n i l a P X : i < n -> nth_error a 0 = Some X ->
  returns proc (list event) (traced n) aim (logger i) VNil l a P (fun _ l' a' _ => l' = l ++ [(logger i, X)] /\ length a' = 4).
Proof.
  intros Hi E h g P' s e c d T _ Ret st C.
  destruct T as [Th Tl Tc Tr (v & D & V & At & N)]. pose proof (Tl i Hi) as Hl.
  assert (G : reaches proc (St [] (VPtr (length h)) (logger_code i) (DS s :: DE e :: DC c :: d) (h ++ [OPair VNil VNil]) g a)
    aim).
  { unfold logger_code. eapply r_next; [cbn [step]; rewrite V; reflexivity|]. eapply r_next; [reflexivity|]. eapply r_next; [reflexivity|].
    eapply r_next; [cbn [step]; rewrite Tr; reflexivity|]. eapply r_next; [reflexivity|].
    apply (Ret _ (l ++ [(logger i, X)]) _ _ _ P'); [|apply sub_refl|split; [reflexivity|rewrite update_len; exact Tr]].
    assert (Len : forall q o, nth_error h q = Some o -> nth_error ((h ++ [OPair VNil VNil]) ++ [OPair (VImm (Z.of_nat i)) v]) q = Some o).
    { intros q o H. assert (q < length h) by (apply nth_error_Some; congruence). rewrite <- app_assoc, nth_error_app1; assumption. }
    split.
    + intros q o H. apply Len, Th, H.
    + intros j Hj. apply Len, Tl, Hj.
    + exact Tc.
    + rewrite update_len. exact Tr.
    + eexists _, (_ :: D). split; [eapply nth_update_eq; exact V|]. split.
      * rewrite map_app, rev_app_distr. cbn [map rev app fst number_of logger]. replace (first_logger + i - first_logger) with i by lia. econstructor.
        -- rewrite nth_error_app2, Nat.sub_diag by lia. reflexivity.
        -- apply at_app, at_app, At.
      * intros q o [<-|Hq] HP; [|exact (N q o Hq HP)]. apply Th in HP.
        assert (length (h ++ [OPair VNil VNil]) < length h) by (apply nth_error_Some; congruence). rewrite app_length in H. lia. }
  destruct C; (eapply r_next; [cbn [step callee logger]; rewrite Hl; reflexivity|exact G]).
Qed.
Lemma loggers_run proc aim n evs : Forall (fun ev => exists i, i < n /\ fst ev = logger i) evs -> forall l a P, length a = 4 ->
  runs proc (list event) (traced n) aim evs l a P (fun l' _ _ => l' = l ++ evs).
Proof.
  induction 1 as [|[x X] evs (i & Hi & E) F IH]; intros l a P L; cbn [runs]; [symmetry; apply app_nil_r|]. cbn [fst] in E. subst x.
  eapply returns_mono; [|apply logger_returns with (X := X); [exact Hi|apply register; [exact L|lia]]].
  intros v l' a' P' U [-> L']. eapply runs_mono; [|apply IH; exact L']. intros l2 a2 P2 _ ->. rewrite <- app_assoc. reflexivity.
Qed.
