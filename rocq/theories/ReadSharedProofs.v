(** Proofs about read/ss (ReadShared.v). *)
From Coq Require Import ZArith List Bool Arith Lia.
From Verif Require Import Lists Labels LabelsSpec Tells ReadShared ReadSharedSpec.
Import ListNotations.


(** ** Chains of labels *)
Fixpoint after (chain : list nat) (ts : list token) : list nat :=
  match ts with [] => chain | TDecl n :: ts => after (n :: chain) ts | _ :: ts => after [] ts end.
Lemma grounded_app ts us : forall C, grounded C (ts ++ us) <-> grounded C ts /\ grounded (after C ts) us.
Proof.
  induction ts as [|t ts IH]; intros C; [cbn; tauto|]. destruct t; cbn [app grounded after]; rewrite IH; tauto.
Qed.
Lemma after_app ts us : forall C, after C (ts ++ us) = after (after C ts) us.
Proof. induction ts as [|t ts IH]; intros C; [reflexivity|]. destruct t; cbn [app after]; apply IH. Qed.
Lemma after_shows h :
  (forall E ts v E', shows h E ts v E' -> forall C, after C ts = []) /\
  (forall E ts v E', shows_rest h E ts v E' -> forall C, after C ts = []) /\
  (forall E ts vs E', shows_all h E ts vs E' -> after [] ts = []).
Proof.
  apply shows_ind3; intros; cbn [after app]; rewrite ?after_app; auto.
  rewrite H. exact H0.
Qed.
Lemma grounded_obj h E ts v E' us C : shows h E ts v E' -> (grounded C (ts ++ us) <-> grounded C ts /\ grounded [] us).
Proof. intros S. rewrite grounded_app, (proj1 (after_shows h) _ _ _ _ S). reflexivity. Qed.

(** ** What has been read, before the thunks are replaced *)
Definition thunk (h : store) (p : nat) : Prop := exists n, nth_error h p = Some (Label n).
Record extends (s s' : reader) : Prop := {
  ex_len : length (nodes s) <= length (nodes s');
  ex_nodes : forall p, p < length (nodes s) -> nth_error (nodes s') p = nth_error (nodes s) p;
  ex_parts : forall n p, declared n (parts_alist s) = Some p -> declared n (parts_alist s') = Some p;
  ex_vars : forall p v, variable p (variables s) = Some v -> variable p (variables s') = Some v }.
Lemma extends_refl s : extends s s.
Proof. constructor; auto. Qed.
Lemma extends_trans s t u : extends s t -> extends t u -> extends s u.
Proof.
  intros [a b c d] [a' b' c' d']. constructor; auto; [lia|]. intros p L. rewrite b' by lia. apply b, L.
Qed.

(** Objects read from k on; their nodes are at addresses from k to k' *)
Inductive raw (s : reader) : list nat -> nat -> list token -> val -> list nat -> nat -> Prop :=
| Raw_atom : forall E k v, atomic (nodes s) v -> raw s E k [TAtom v] v E k
| Raw_nil : forall E k, raw s E k [TOpen; TClose] Nil E k
| Raw_use : forall E k n p, In n E -> declared n (parts_alist s) = Some p -> nth_error (nodes s) p = Some (Label n) -> raw s E k [TUse n] (Ptr p) E k
| Raw_decl : forall E k n ts q E' k', ~ In n E -> ts <> [TUse n] -> nth_error (nodes s) k = Some (Label n) -> declared n (parts_alist s) = Some k ->
    variable k (variables s) = Some (Ptr q) -> raw s (n :: E) (S k) ts (Ptr q) E' k' -> raw s E k (TDecl n :: ts) (Ptr q) E' k'
| Raw_pair : forall E k ts us a d E1 k1 E2 k2, raw s E k ts a E1 k1 -> raw_rest s E1 k1 us d E2 k2 ->
    nth_error (nodes s) k2 = Some (Cons a d) -> raw s E k (TOpen :: ts ++ us) (Ptr k2) E2 (S k2)
| Raw_vector : forall E k ts vs E1 k1 k2, raw_all s E k ts vs E1 k1 -> k1 <= k2 -> nth_error (nodes s) k2 = Some (Vector vs) ->
    raw s E k (TVec :: ts ++ [TClose]) (Ptr k2) E1 (S k2)
with raw_rest (s : reader) : list nat -> nat -> list token -> val -> list nat -> nat -> Prop :=
| RawR_nil : forall E k, raw_rest s E k [TClose] Nil E k
| RawR_dot : forall E k ts v E' k', raw s E k ts v E' k' -> raw_rest s E k (TDot :: ts ++ [TClose]) v E' k'
| RawR_pair : forall E k ts us a d E1 k1 E2 k2, raw s E k ts a E1 k1 -> raw_rest s E1 k1 us d E2 k2 ->
    nth_error (nodes s) k2 = Some (Cons a d) -> raw_rest s E k (ts ++ us) (Ptr k2) E2 (S k2)
with raw_all (s : reader) : list nat -> nat -> list token -> list val -> list nat -> nat -> Prop :=
| RawA_nil : forall E k, raw_all s E k [] [] E k
| RawA_cons : forall E k ts v us vs E1 k1 E2 k2, raw s E k ts v E1 k1 -> raw_all s E1 k1 us vs E2 k2 -> raw_all s E k (ts ++ us) (v :: vs) E2 k2.
Scheme raw_mut := Induction for raw Sort Prop
  with raw_rest_mut := Induction for raw_rest Sort Prop
  with raw_all_mut := Induction for raw_all Sort Prop.
Combined Scheme raw_ind3 from raw_mut, raw_rest_mut, raw_all_mut.

(** States of the reader *)
Record inv (s : reader) : Prop := {
  inv_parts : forall n p, In (n, p) (parts_alist s) -> nth_error (nodes s) p = Some (Label n);
  inv_vars : forall p v, variable p (variables s) = Some v -> p < length (nodes s) }.
Definition initialised (s : reader) (lo : nat) : Prop := forall p n, lo <= p -> nth_error (nodes s) p = Some (Label n) ->
  exists q, variable p (variables s) = Some (Ptr q) /\ q < length (nodes s) /\ (thunk (nodes s) q -> q < p).
Record reads (s s' : reader) (E' : list nat) : Prop := {
  rd_inv : inv s';
  rd_ext : extends s s';
  rd_labels : map fst (parts_alist s') = E';
  rd_new : forall q v, variable q (variables s') = Some v -> variable q (variables s) = Some v \/ length (nodes s) <= q;
  rd_init : initialised s' (length (nodes s)) }.

Lemma lt_nth {A} (l : list A) p x : nth_error l p = Some x -> p < length l.
Proof. intros H. apply nth_error_Some. congruence. Qed.
Lemma declared_in n p ls : declared n ls = Some p -> In (n, p) ls.
Proof.
  induction ls as [|(m, q) ls IH]; [discriminate|]. cbn [declared]. destruct (Nat.eqb_spec m n) as [->|N]; intros H; [injection H as ->; left; reflexivity|right; auto].
Qed.
Lemma declared_some n ls : In n (map fst ls) -> exists p, declared n ls = Some p.
Proof.
  induction ls as [|(m, q) ls IH]; [intros []|]. cbn [declared map fst]. destruct (Nat.eqb_spec m n) as [->|N]; [eauto|]. intros [H|H]; [congruence|auto].
Qed.
Lemma declared_none n ls : ~ In n (map fst ls) -> declared n ls = None.
Proof.
  intros H. destruct (declared n ls) as [p|] eqn:D; [|reflexivity]. destruct H. apply declared_in in D. change n with (fst (n, p)). apply in_map, D.
Qed.
Lemma declared_app n C ls : ~ In n (map fst C) -> declared n (C ++ ls) = declared n ls.
Proof.
  induction C as [|(m, q) C IH]; intros H; [reflexivity|]. cbn [declared app map fst] in *. destruct (Nat.eqb_spec m n) as [->|N]; [destruct H; left; reflexivity|].
  apply IH. intros X. apply H. right. exact X.
Qed.
Lemma stands_label n p E : stands n p E -> In n (map fst E).
Proof. induction 1; [left; reflexivity|right; assumption]. Qed.
Lemma fresh_label n E : fresh n E -> ~ In n (map fst E).
Proof. intros F I. apply in_map_iff in I. destruct I as ((m, q) & <- & I). exact (F q I). Qed.

Lemma atomic_ext s s' v : extends s s' -> atomic (nodes s) v -> atomic (nodes s') v.
Proof.
  intros X A. destruct A as [b|p n H|p H].
  - constructor.
  - eapply Atomic_text. rewrite (ex_nodes _ _ X); [exact H|eapply lt_nth, H].
  - eapply Atomic_other. rewrite (ex_nodes _ _ X); [exact H|eapply lt_nth, H].
Qed.

Lemma init_trans s s1 s2 E1 E2 : reads s s1 E1 -> reads s1 s2 E2 -> initialised s2 (length (nodes s)).
Proof.
  intros R1 R2 p n L H. destruct (Nat.lt_ge_cases p (length (nodes s1))) as [M|M]; [|exact (rd_init _ _ _ R2 p n M H)].
  pose proof (rd_ext _ _ _ R2) as X. rewrite (ex_nodes _ _ X p M) in H. destruct (rd_init _ _ _ R1 p n L H) as (q & V & Q & T).
  exists q. split; [apply (ex_vars _ _ X), V|]. split; [pose proof (ex_len _ _ X); lia|]. intros (m & T'). apply T. exists m. rewrite (ex_nodes _ _ X q Q) in T'. exact T'.
Qed.
Lemma reads_trans s s1 s2 E1 E2 : reads s s1 E1 -> reads s1 s2 E2 -> reads s s2 E2.
Proof.
  intros R1 R2. constructor.
  - apply R2.
  - eapply extends_trans; [apply R1|apply R2].
  - apply R2.
  - intros q v H. destruct (rd_new _ _ _ R2 q v H) as [K|K]; [destruct (rd_new _ _ _ R1 q v K); auto|]. right. pose proof (ex_len _ _ (rd_ext _ _ _ R1)). lia.
  - eapply init_trans; eassumption.
Qed.
Lemma reads_refl s E : inv s -> map fst (parts_alist s) = E -> reads s s E.
Proof.
  intros I H. constructor; auto using extends_refl. intros p n L K. apply lt_nth in K. lia.
Qed.
(** Adding a pair or vector *)
Lemma reads_add s s' E' o : (forall n, o <> Label n) -> reads s s' E' ->
  reads s (Reader (nodes s' ++ [o]) (parts_alist s') (variables s')) E'.
Proof.
  intros NL R. pose proof (rd_inv _ _ _ R) as I. pose proof (rd_ext _ _ _ R) as X.
  assert (App : forall p, p < length (nodes s') -> nth_error (nodes s' ++ [o]) p = nth_error (nodes s') p) by (intros p L; apply nth_error_app1, L).
  constructor.
  - constructor; cbn [nodes parts_alist variables].
    + intros n p H. pose proof (inv_parts _ I _ _ H) as K. rewrite App; [exact K|]. eapply lt_nth, K.
    + intros p v H. apply (inv_vars _ I) in H. rewrite app_length. lia.
  - constructor; cbn [nodes parts_alist variables].
    + rewrite app_length. pose proof (ex_len _ _ X). lia.
    + intros p L. rewrite App by (pose proof (ex_len _ _ X); lia). apply (ex_nodes _ _ X), L.
    + apply (ex_parts _ _ X).
    + apply (ex_vars _ _ X).
  - apply R.
  - apply (rd_new _ _ _ R).
  - intros p n L H. cbn [nodes parts_alist variables] in *.
    assert (M : p < length (nodes s')). { pose proof (lt_nth _ _ _ H) as M. rewrite app_length in M. cbn in M.
      destruct (Nat.eq_dec p (length (nodes s'))) as [->|]; [|lia]. rewrite nth_error_app2, Nat.sub_diag in H by lia. injection H as H. destruct (NL _ H). }
    rewrite App in H by exact M. destruct (rd_init _ _ _ R p n L H) as (q & V & Q & T). exists q. split; [exact V|]. split; [rewrite app_length; lia|].
    intros (m & K). rewrite App in K by exact Q. apply T. exists m. exact K.
Qed.
Lemma ext_add s' o s1 : extends (Reader (nodes s' ++ [o]) (parts_alist s') (variables s')) s1 -> extends s' s1 /\ nth_error (nodes s1) (length (nodes s')) = Some o.
Proof.
  intros [a b c d]. cbn [nodes parts_alist variables] in *. rewrite app_length in *. cbn [length] in *. split.
  - constructor; auto; [lia|]. intros p L. rewrite b by lia. apply nth_error_app1, L.
  - rewrite b by lia. rewrite nth_error_app2, Nat.sub_diag by lia. reflexivity.
Qed.

(** ** Reading *)
Definition finishes (s : reader) (t : token) (ts : list token) (v : val) (s' : reader) : Prop :=
  exists f0, forall fuel rest, f0 <= fuel -> read_part fuel (Finish t) s (ts ++ rest) = Done (Object v, s', rest).
Definition decls (s : reader) (start : list (nat * nat)) (t : token) (ts : list token) (v : val) (s' : reader) : Prop :=
  exists f0, forall fuel rest, f0 <= fuel -> read_part fuel (Decls start t) s (ts ++ rest) = Done (Object v, s', rest).
Definition tails (s : reader) (ts : list token) (v : val) (s' : reader) : Prop :=
  exists f0, forall fuel rest, f0 <= fuel -> read_part fuel Tail s (ts ++ rest) = Done (Object v, s', rest).
Lemma decls_finishes s t ts v s' : decls s (parts_alist s) t ts v s' -> finishes s t ts v s'.
Proof.
  intros (f & H). exists (S f). intros fuel rest L. destruct fuel as [|fuel]; [lia|].
  destruct t; try (cbn [read_part]; apply H; lia);
    specialize (H (S (S fuel)) rest ltac:(lia)); cbn [read_part] in H |- *; exact H.
Qed.
Lemma finishes_decls s t ts v s' start : (forall n, t <> TDecl n) -> (forall n, t <> TUse n) -> finishes s t ts v s' -> decls s start t ts v s'.
Proof.
  intros N U (f & H). exists (S f). intros fuel rest L. destruct fuel as [|fuel]; [lia|].
  destruct t; try (destruct (N n eq_refl)); try (destruct (U n eq_refl)); cbn [read_part]; apply H; lia.
Qed.
Definition leads (t : token) : Prop := t <> TClose /\ t <> TDot.

Definition reads_obj (h0 : store) (E : scope) (ts : list token) (v0 : val) (E' : scope) : Prop :=
  forall s C start, inv s -> map fst (parts_alist s) = map fst E -> parts_alist s = C ++ start -> grounded (map fst C) ts ->
  (forall v, In (TAtom v) ts -> atomic (nodes s) v) ->
  exists t ts' v s', ts = t :: ts' /\ leads t /\ decls s start t ts' v s' /\ reads s s' (map fst E') /\
    (forall p, v0 = Ptr p -> exists q, v = Ptr q) /\
    (forall q, v = Ptr q -> q < length (nodes s') /\ (thunk (nodes s') q -> exists n, In (n, q) start)) /\
    forall s1, extends s' s1 -> raw s1 (map fst E) (length (nodes s)) ts v (map fst E') (length (nodes s')).
Definition reads_rest (h0 : store) (E : scope) (ts : list token) (v0 : val) (E' : scope) : Prop :=
  forall s, inv s -> map fst (parts_alist s) = map fst E -> grounded [] ts ->
  (forall v, In (TAtom v) ts -> atomic (nodes s) v) ->
  exists v s', tails s ts v s' /\ reads s s' (map fst E') /\
    forall s1, extends s' s1 -> raw_rest s1 (map fst E) (length (nodes s)) ts v (map fst E') (length (nodes s')).
Definition reads_all (h0 : store) (E : scope) (ts : list token) (vs0 : list val) (E' : scope) : Prop :=
  forall s, inv s -> map fst (parts_alist s) = map fst E -> grounded [] ts ->
  (forall v, In (TAtom v) ts -> atomic (nodes s) v) ->
  exists v vs s' k1, tails s (ts ++ [TClose]) v s' /\ reads s s' (map fst E') /\
    (forall h, (forall p, p < length (nodes s') -> nth_error h p = nth_error (nodes s') p) -> forall f, length vs < f -> items f h v = Done vs) /\
    length vs + length (nodes s) <= length (nodes s') /\
    k1 <= length (nodes s') /\
    forall s1, extends s' s1 -> raw_all s1 (map fst E) (length (nodes s)) ts vs (map fst E') k1.
(** An object by finish-reading-object *)
Lemma obj_finishes h0 E ts v0 E' s : reads_obj h0 E ts v0 E' -> inv s -> map fst (parts_alist s) = map fst E -> grounded [] ts ->
  (forall v, In (TAtom v) ts -> atomic (nodes s) v) ->
  exists t ts' v s', ts = t :: ts' /\ leads t /\ finishes s t ts' v s' /\ reads s s' (map fst E') /\
    forall s1, extends s' s1 -> raw s1 (map fst E) (length (nodes s)) ts v (map fst E') (length (nodes s')).
Proof.
  intros H I P G A. destruct (H s [] (parts_alist s) I P eq_refl G A) as (t & ts' & v & s' & -> & L & D & R & _ & _ & W).
  exists t, ts', v, s'. split; [reflexivity|]. split; [exact L|]. split; [apply decls_finishes, D|]. split; [exact R|exact W].
Qed.

Lemma tail_pair s t ts' us a s1 d s2 : leads t -> finishes s t ts' a s1 -> tails s1 us d s2 ->
  tails s ((t :: ts') ++ us) (Ptr (length (nodes s2))) (Reader (nodes s2 ++ [Cons a d]) (parts_alist s2) (variables s2)).
Proof.
  intros (L & M) (f & F) (g & G). exists (S (Nat.max f g)). intros fuel rest B. destruct fuel as [|fuel]; [lia|]. cbn [app].
  specialize (F fuel (us ++ rest) ltac:(lia)). specialize (G fuel rest ltac:(lia)). rewrite <- app_assoc.
  destruct t; try congruence; cbn [read_part]; rewrite F; cbn [rbind]; rewrite G; reflexivity.
Qed.
Lemma grounded_open C t ts : (t = TOpen \/ t = TVec \/ t = TDot) -> grounded C (t :: ts) -> grounded [] ts.
Proof. intros [-> | [-> | ->]] H; exact H. Qed.

Lemma reading h0 :
  (forall E ts v E', shows h0 E ts v E' -> reads_obj h0 E ts v E') /\
  (forall E ts v E', shows_rest h0 E ts v E' -> reads_rest h0 E ts v E') /\
  (forall E ts vs E', shows_all h0 E ts vs E' -> reads_all h0 E ts vs E').
Proof.
  apply shows_ind3.
  - (* atom *)
    intros E v At s C start I P PC G A. exists (TAtom v), [], v, s. split; [reflexivity|]. split; [split; discriminate|]. split.
    { apply finishes_decls; try discriminate. exists 1. intros fuel rest L. destruct fuel as [|fuel]; [lia|]. reflexivity. }
    split; [apply reads_refl; assumption|]. assert (Av : atomic (nodes s) v) by (apply A; left; reflexivity).
    split; [intros p ->; eauto|]. split.
    { intros q ->. inversion Av as [|p n H|p H]; subst; (split; [eapply lt_nth; eassumption|]); intros (m & T); congruence. }
    intros s1 X. constructor. eapply atomic_ext; eassumption.
  - (* () *)
    intros E s C start I P PC G A. exists TOpen, [TClose], Nil, s. split; [reflexivity|]. split; [split; discriminate|]. split.
    { apply finishes_decls; try discriminate. exists 2. intros fuel rest L. do 2 (destruct fuel as [|fuel]; [lia|]). reflexivity. }
    split; [apply reads_refl; assumption|]. split; [discriminate|]. split; [discriminate|]. intros s1 X. constructor.
  - (* use *)
    intros E n p St s C start I P PC G A. destruct G as [G _]. pose proof (stands_label _ _ _ St) as In_n. pose proof In_n as In_n'. rewrite <- P, PC, map_app in In_n.
    apply in_app_or in In_n. destruct In_n as [K|K]; [destruct (G K)|]. destruct (declared_some _ _ K) as (q & D).
    assert (D' : declared n (parts_alist s) = Some q) by (rewrite PC, declared_app; assumption).
    pose proof (inv_parts _ I _ _ (declared_in _ _ _ D')) as Nq.
    exists (TUse n), [], (Ptr q), s. split; [reflexivity|]. split; [split; discriminate|]. split.
    { exists 1. intros fuel rest L. destruct fuel as [|fuel]; [lia|]. cbn [read_part app]. rewrite D. reflexivity. }
    split; [apply reads_refl; assumption|]. split; [eauto|]. split.
    { intros q' [= <-]. split; [eapply lt_nth, Nq|]. intros _. exists n. apply declared_in, D. }
    intros s1 X. apply Raw_use; [exact In_n'|apply (ex_parts _ _ X), D'|]. rewrite (ex_nodes _ _ X); [exact Nq|eapply lt_nth, Nq].
  - (* decl *)
    intros E n p ts E' Fr NU Sh IH s C start I P PC G A. cbn [grounded] in G.
    set (k := length (nodes s)). set (s0 := Reader (nodes s ++ [Label n]) ((n, k) :: parts_alist s) (variables s)).
    assert (App : forall q, q < k -> nth_error (nodes s ++ [Label n]) q = nth_error (nodes s) q) by (intros q L; apply nth_error_app1, L).
    assert (At_k : nth_error (nodes s ++ [Label n]) k = Some (Label n)) by (rewrite nth_error_app2, Nat.sub_diag by (unfold k; lia); reflexivity).
    assert (Len0 : length (nodes s0) = S k) by (cbn; rewrite app_length; cbn; unfold k; lia).
    pose proof (fresh_label _ _ Fr) as NE. assert (ND : declared n (parts_alist s) = None) by (apply declared_none; rewrite P; exact NE).
    assert (I0 : inv s0).
    { constructor; cbn [nodes parts_alist variables s0].
      - intros m q [[= <- <-]|H]; [exact At_k|]. pose proof (inv_parts _ I _ _ H) as Nq. rewrite App; [exact Nq|eapply lt_nth, Nq].
      - intros q v H. apply (inv_vars _ I) in H. rewrite app_length. lia. }
    assert (X0 : extends s s0).
    { constructor; cbn [nodes parts_alist variables s0].
      - rewrite app_length. lia.
      - exact App.
      - intros m q H. cbn [declared]. destruct (Nat.eqb_spec n m) as [->|]; [congruence|exact H].
      - auto. }
    destruct (IH s0 ((n, k) :: C) start I0) as (t & ts' & v & s' & -> & L & (f & D) & R & Pt & Th & W).
    { cbn. rewrite P. reflexivity. } { cbn. rewrite PC. reflexivity. } { exact G. }
    { intros v H. eapply atomic_ext; [exact X0|]. apply A. right. exact H. }
    destruct (Pt p eq_refl) as (q & ->). destruct (Th q eq_refl) as (Lq & Tq).
    pose proof (rd_ext _ _ _ R) as X. pose proof (ex_len _ _ X) as LenX. rewrite Len0 in LenX.
    assert (None_k : variable k (variables s') = None).
    { destruct (variable k (variables s')) as [w|] eqn:Vk; [|reflexivity]. destruct (rd_new _ _ _ R _ _ Vk) as [K|K]; [|rewrite Len0 in K; lia].
      apply (inv_vars _ I) in K. unfold k in K. lia. }
    set (s'' := Reader (nodes s') (parts_alist s') ((k, Ptr q) :: variables s')).
    assert (X' : extends s' s'').
    { constructor; cbn [nodes parts_alist variables s'']; auto. intros r w H. cbn [variable]. destruct (Nat.eqb_spec k r) as [->|]; [congruence|exact H]. }
    assert (Nk : nth_error (nodes s') k = Some (Label n)) by (rewrite (ex_nodes _ _ X) by lia; exact At_k).
    assert (Dk : declared n (parts_alist s') = Some k) by (apply (ex_parts _ _ X); cbn; rewrite Nat.eqb_refl; reflexivity).
    assert (Lt_start : forall m r, In (m, r) start -> r < k).
    { intros m r H. assert (H' : In (m, r) (parts_alist s)) by (rewrite PC; apply in_or_app; right; exact H). eapply lt_nth, (inv_parts _ I), H'. }
    exists (TDecl n), (t :: ts'), (Ptr q), s''. split; [reflexivity|]. split; [split; discriminate|]. split.
    { exists (S f). intros fuel rest B. destruct fuel as [|fuel]; [lia|]. cbn [read_part app add_node]. rewrite ND. cbn [nodes parts_alist variables].
      fold k. change (Reader (nodes s ++ [Label n]) ((n, k) :: parts_alist s) (variables s)) with s0. rewrite D by lia. reflexivity. }
    split.
    { constructor.
      - constructor; cbn [nodes parts_alist variables s''].
        + apply (inv_parts _ (rd_inv _ _ _ R)).
        + intros r w H. cbn [variable] in H. destruct (Nat.eqb_spec k r) as [<-|]; [lia|]. eapply (inv_vars _ (rd_inv _ _ _ R)), H.
      - eapply extends_trans; [exact X0|]. eapply extends_trans; [exact X|exact X'].
      - exact (rd_labels _ _ _ R).
      - cbn [variables s'']. intros r w H. cbn [variable] in H. destruct (Nat.eqb_spec k r) as [<-|]; [right; unfold k; lia|].
        destruct (rd_new _ _ _ R _ _ H) as [K|K]; [left; exact K|right; rewrite Len0 in K; unfold k in K; lia].
      - intros r m B H. cbn [nodes variables s''] in *. fold k in B. destruct (Nat.eq_dec r k) as [->|N].
        + exists q. cbn [variable]. rewrite Nat.eqb_refl. split; [reflexivity|]. split; [exact Lq|]. intros T. destruct (Tq T) as (m' & Is). eapply Lt_start, Is.
        + destruct (rd_init _ _ _ R r m) as (x & V & Lx & Tx); [rewrite Len0; lia|exact H|]. exists x. cbn [variable].
          destruct (Nat.eqb_spec k r); [congruence|]. auto. }
    split; [eauto|]. split.
    { intros x [= <-]. cbn [nodes s'']. split; [exact Lq|exact Tq]. }
    intros s1 X1. pose proof (extends_trans _ _ _ X' X1) as X1'. apply Raw_decl.
    + exact NE.
    + exact NU.
    + rewrite (ex_nodes _ _ X1'); [exact Nk|lia].
    + apply (ex_parts _ _ X1'), Dk.
    + apply (ex_vars _ _ X1). cbn. rewrite Nat.eqb_refl. reflexivity.
    + specialize (W s1 X1'). rewrite Len0 in W. exact W.
  - (* pair *)
    intros E p a d ts us E1 E2 Hp S1 IH1 S2 IH2 s C start I P PC G A. apply grounded_open in G; [|auto].
    apply (grounded_obj h0 _ _ _ _ us [] S1) in G. destruct G as [G1 G2].
    destruct (obj_finishes h0 E ts a E1 s IH1 I P G1) as (t & ts' & va & s1 & -> & L & F & R1 & W1).
    { intros v H. apply A. right. apply in_or_app. left. exact H. }
    destruct (IH2 s1 (rd_inv _ _ _ R1) (rd_labels _ _ _ R1) G2) as (vd & s2 & T & R2 & W2).
    { intros v H. eapply atomic_ext; [apply R1|]. apply A. right. apply in_or_app. right. exact H. }
    exists TOpen, ((t :: ts') ++ us), (Ptr (length (nodes s2))), (Reader (nodes s2 ++ [Cons va vd]) (parts_alist s2) (variables s2)).
    split; [reflexivity|]. split; [split; discriminate|]. split.
    { apply finishes_decls; try discriminate. destruct (tail_pair _ _ _ _ _ _ _ _ L F T) as (f & K). exists (S f). intros fuel rest B. destruct fuel as [|fuel]; [lia|].
      cbn [read_part]. apply K. lia. }
    split; [apply reads_add; [discriminate|]; eapply reads_trans; eassumption|]. split; [eauto|]. split.
    { intros q [= <-]. cbn [nodes]. rewrite app_length. split; [cbn; lia|]. intros (n & H). rewrite nth_error_app2, Nat.sub_diag in H by lia. discriminate H. }
    intros s3 X. apply ext_add in X. destruct X as [X Nk]. cbn [nodes]. rewrite app_length. cbn [length]. rewrite Nat.add_1_r.
    eapply Raw_pair; [apply W1; eapply extends_trans; [apply R2|exact X]|apply W2, X|exact Nk].
  - (* vector *)
    intros E p vs ts E' Hp S1 IH1 s C start I P PC G A. apply grounded_open in G; [|auto].
    apply grounded_app in G. destruct G as [G _].
    destruct (IH1 s I P G) as (l & ws & s' & k1 & (f & T) & R & It & Ln & Lk & W).
    { intros v H. apply A. right. apply in_or_app. left. exact H. }
    exists TVec, (ts ++ [TClose]), (Ptr (length (nodes s'))), (Reader (nodes s' ++ [Vector ws]) (parts_alist s') (variables s')).
    split; [reflexivity|]. split; [split; discriminate|]. split.
    { apply finishes_decls; try discriminate. exists (S f). intros fuel rest B. destruct fuel as [|fuel]; [lia|]. cbn [read_part]. rewrite T by lia. cbn [rbind].
      rewrite It; [reflexivity|auto|lia]. }
    split; [apply reads_add; [discriminate|exact R]|]. split; [eauto|]. split.
    { intros q [= <-]. cbn [nodes]. rewrite app_length. split; [cbn; lia|]. intros (n & H). rewrite nth_error_app2, Nat.sub_diag in H by lia. discriminate H. }
    intros s3 X. apply ext_add in X. destruct X as [X Nk]. cbn [nodes]. rewrite app_length. cbn [length]. rewrite Nat.add_1_r.
    eapply Raw_vector; [apply W, X|exact Lk|exact Nk].
  - (* rest: ) *)
    intros E s I P G A. exists Nil, s. split; [|split; [apply reads_refl; assumption|intros; constructor]].
    exists 1. intros fuel rest L. destruct fuel as [|fuel]; [lia|]. reflexivity.
  - (* rest: . *)
    intros E ts v E' S1 IH1 s I P G A. apply grounded_open in G; [|auto]. apply grounded_app in G. destruct G as [G _].
    destruct (obj_finishes h0 E ts v E' s IH1 I P G) as (t & ts' & w & s' & -> & L & (f & F) & R & W).
    { intros x H. apply A. right. apply in_or_app. left. exact H. }
    exists w, s'. split; [|split; [exact R|]].
    { exists (S f). intros fuel rest B. destruct fuel as [|fuel]; [lia|]. cbn [app read_part]. rewrite <- app_assoc. rewrite F by lia. reflexivity. }
    intros s1 X. constructor. apply W, X.
  - (* rest: pair *)
    intros E p a d ts us E1 E2 Hp S1 IH1 S2 IH2 s I P G A.
    apply (grounded_obj h0 _ _ _ _ us [] S1) in G. destruct G as [G1 G2].
    destruct (obj_finishes h0 E ts a E1 s IH1 I P G1) as (t & ts' & va & s1 & -> & L & F & R1 & W1).
    { intros v H. apply A. apply in_or_app. left. exact H. }
    destruct (IH2 s1 (rd_inv _ _ _ R1) (rd_labels _ _ _ R1) G2) as (vd & s2 & T & R2 & W2).
    { intros v H. eapply atomic_ext; [apply R1|]. apply A. apply in_or_app. right. exact H. }
    exists (Ptr (length (nodes s2))), (Reader (nodes s2 ++ [Cons va vd]) (parts_alist s2) (variables s2)).
    split; [eapply tail_pair; eassumption|]. split; [apply reads_add; [discriminate|]; eapply reads_trans; eassumption|].
    intros s3 X. apply ext_add in X. destruct X as [X Nk]. cbn [nodes]. rewrite app_length. cbn [length]. rewrite Nat.add_1_r.
    eapply RawR_pair; [apply W1; eapply extends_trans; [apply R2|exact X]|apply W2, X|exact Nk].
  - (* no elements *)
    intros E s I P G A. exists Nil, [], s, (length (nodes s)). split; [|split; [apply reads_refl; assumption|]].
    { exists 1. intros fuel rest L. destruct fuel as [|fuel]; [lia|]. reflexivity. }
    split; [intros h _ f L; destruct f; [cbn in L; lia|reflexivity]|]. split; [cbn; lia|]. split; [lia|]. intros; constructor.
  - (* an element *)
    intros E ts v E1 us vs E2 S1 IH1 S2 IH2 s I P G A.
    apply (grounded_obj h0 _ _ _ _ us [] S1) in G. destruct G as [G1 G2].
    destruct (obj_finishes h0 E ts v E1 s IH1 I P G1) as (t & ts' & va & s1 & -> & L & F & R1 & W1).
    { intros w H. apply A. apply in_or_app. left. exact H. }
    destruct (IH2 s1 (rd_inv _ _ _ R1) (rd_labels _ _ _ R1) G2) as (l & ws & s2 & k1 & T & R2 & It & Ln & Lk & W2).
    { intros w H. eapply atomic_ext; [apply R1|]. apply A. apply in_or_app. right. exact H. }
    exists (Ptr (length (nodes s2))), (va :: ws), (Reader (nodes s2 ++ [Cons va l]) (parts_alist s2) (variables s2)), k1.
    split; [rewrite <- app_assoc; eapply tail_pair; eassumption|]. split; [apply reads_add; [discriminate|]; eapply reads_trans; eassumption|].
    cbn [nodes]. rewrite app_length. cbn [length]. pose proof (ex_len _ _ (rd_ext _ _ _ R1)) as B. split.
    { intros h K f Lf. destruct f as [|f]; [lia|]. cbn [items]. rewrite K by lia. rewrite nth_error_app2, Nat.sub_diag by lia. cbn [nth_error].
      rewrite It; [reflexivity| |lia]. intros p Lp. rewrite K by lia. apply nth_error_app1, Lp. }
    split; [lia|]. split; [lia|].
    intros s3 X. apply ext_add in X. destruct X as [X Nk].
    eapply RawA_cons; [apply W1; eapply extends_trans; [apply R2|exact X]|apply W2, X].
Qed.

(** ** Replacing the thunks *)
(** Nodes keep their kinds *)
Definition same_kind (o o' : option node) : Prop :=
  match o, o' with
  | Some (Cons _ _), Some (Cons _ _) => True
  | Some (Vector _), Some (Vector _) => True
  | _, _ => o = o'
  end.
Lemma same_kind_refl o : same_kind o o.
Proof. destruct o as [[]|]; cbn; auto. Qed.
Lemma same_kind_trans a b c : same_kind a b -> same_kind b c -> same_kind a c.
Proof.
  intros H K. destruct a as [[]|], b as [[]|]; cbn in H; try discriminate H; destruct c as [[]|]; cbn in *; auto; congruence.
Qed.
Definition keeps (h h' : store) : Prop := forall p, same_kind (nth_error h p) (nth_error h' p).
Lemma keeps_refl h : keeps h h.
Proof. intros p. apply same_kind_refl. Qed.
Lemma keeps_trans a b c : keeps a b -> keeps b c -> keeps a c.
Proof. intros H K p. eapply same_kind_trans; eauto. Qed.
Lemma keeps_label h h' p n : keeps h h' -> (nth_error h p = Some (Label n) <-> nth_error h' p = Some (Label n)).
Proof.
  intros K. specialize (K p). destruct (nth_error h p) as [[]|], (nth_error h' p) as [[]|]; cbn in K; try discriminate K; split; congruence.
Qed.
Lemma keeps_procedure h h' v : keeps h h' -> procedurep h' v = procedurep h v.
Proof.
  intros K. destruct v as [| |p]; try reflexivity. cbn [procedurep]. specialize (K p).
  destruct (nth_error h p) as [[]|], (nth_error h' p) as [[]|]; cbn in K; try discriminate K; reflexivity.
Qed.
Lemma keeps_atomic h h' v : keeps h h' -> atomic h v -> atomic h' v.
Proof.
  intros K A. destruct A as [b|p n H|p H]; [constructor| |]; specialize (K p); rewrite H in K.
  - destruct (nth_error h' p) as [[]|] eqn:X; cbn in K; try discriminate K. eapply Atomic_text. exact X.
  - destruct (nth_error h' p) as [[]|] eqn:X; cbn in K; try discriminate K. eapply Atomic_other. exact X.
Qed.
Lemma nth_update_same h p o x : nth_error h p = Some x -> nth_error (update h p o) p = Some o.
Proof. revert p. induction h as [|y h IH]; intros [|p] H; try discriminate H; [reflexivity|apply IH, H]. Qed.
Lemma nth_update_other h p q o : p <> q -> nth_error (update h p o) q = nth_error h q.
Proof. revert p q. induction h as [|y h IH]; intros [|p] [|q] H; try reflexivity; try congruence; cbn; auto. Qed.
Lemma keeps_update h p o x : nth_error h p = Some x -> same_kind (Some x) (Some o) -> keeps h (update h p o).
Proof.
  intros H K q. destruct (Nat.eq_dec p q) as [<-|N]; [rewrite (nth_update_same _ _ _ _ H), H; exact K|rewrite nth_update_other by exact N; apply same_kind_refl].
Qed.
Lemma atomic_not_thunk h v : atomic h v -> procedurep h v = false.
Proof. intros [b|p n H|p H]; cbn; rewrite ?H; reflexivity. Qed.

Section Fill.
  Variable s : reader.
  Variable target : nat -> nat.
  (** What a value stands for when all letrecs are done *)
  Inductive means : val -> val -> Prop :=
  | M_self : forall v, procedurep (nodes s) v = false -> means v v
  | M_thunk : forall p n w x, nth_error (nodes s) p = Some (Label n) -> variable p (variables s) = Some w -> means w x -> means (Ptr p) x.
  Lemma means_procedure v x : means v x -> procedurep (nodes s) x = false.
  Proof. induction 1; assumption. Qed.
  Lemma means_self v x : means v x -> procedurep (nodes s) v = false -> x = v.
  Proof. intros [w H|p n w y H V M] K; [reflexivity|]. cbn in K. rewrite H in K. discriminate K. Qed.
  Lemma means_unique v x : means v x -> forall y, means v y -> y = x.
  Proof.
    induction 1 as [v H|p n w x H V M IH]; intros y My; [eapply means_self; eassumption|].
    inversion My as [v' H'|p' n' w' x' H' V' M']; subst.
    - cbn in H'. rewrite H in H'. discriminate H'.
    - apply IH. congruence.
  Qed.
  Lemma means_unthunk v x : means v x -> procedurep (nodes s) v = true -> forall h, keeps (nodes s) h ->
    exists f0, forall fuel, f0 <= fuel -> unthunk fuel h (variables s) v = Done x.
  Proof.
    induction 1 as [v H|p n w x H V M IH]; intros K h Kh; [congruence|]. destruct (procedurep (nodes s) w) eqn:Pw.
    - destruct (IH eq_refl h Kh) as (f0 & F). exists (S f0). intros fuel L. destruct fuel as [|fuel]; [lia|]. cbn [unthunk]. rewrite V, (keeps_procedure _ _ _ Kh), Pw. apply F. lia.
    - exists 1. intros fuel L. destruct fuel as [|fuel]; [lia|]. cbn [unthunk]. rewrite V, (keeps_procedure _ _ _ Kh), Pw. f_equal. symmetry. eapply means_self; eassumption.
  Qed.

  Hypothesis target_means : forall n p, declared n (parts_alist s) = Some p -> means (Ptr p) (Ptr (target n)).
  Definition names (E : list nat) : scope := map (fun n => (n, target n)) E.
  Lemma stands_names n E : In n E -> stands n (target n) (names E).
  Proof.
    induction E as [|m E IH]; intros H; [destruct H|]. destruct (Nat.eq_dec m n) as [->|N]; [constructor|]. destruct H as [H|H]; [congruence|]. constructor; auto.
  Qed.
  Lemma fresh_names n E : ~ In n E -> fresh n (names E).
  Proof. intros N q H. apply in_map_iff in H. destruct H as (m & [= -> _] & H). exact (N H). Qed.
  Definition same_on (lo hi : nat) (h h' : store) : Prop := forall p, lo <= p < hi -> nth_error h' p = nth_error h p.
  Definition same_off (lo hi : nat) (h h' : store) : Prop := forall p, ~ (lo <= p < hi) -> nth_error h' p = nth_error h p.

  (** Replacing the thunks of a slot and of what is behind it *)
  Definition fills (k k' : nat) (v : val) (H : store) (x : val) (H' : store) : Prop :=
    means v x /\ keeps H H' /\ same_off k k' H H' /\ length H' = length H /\
    (procedurep H v = true -> H' = H) /\
    exists f0, forall fuel, f0 <= fuel ->
      (procedurep H v = true -> unthunk fuel H (variables s) v = Done x) /\
      (procedurep H v = false -> fill_in_parts fuel (variables s) H v = Done H').
  Lemma length_update h p o : length (update h p o) = length h.
  Proof. revert p. induction h as [|x h IH]; intros [|p]; cbn; auto. Qed.

  Lemma fills_nothing k v H : v = Nil \/ atomic (nodes s) v -> keeps (nodes s) H -> fills k k v H v H.
  Proof.
    intros A K. assert (N : procedurep (nodes s) v = false) by (destruct A as [->|A]; [reflexivity|apply atomic_not_thunk, A]).
    split; [constructor; exact N|]. split; [apply keeps_refl|]. split; [intros p _; reflexivity|]. split; [reflexivity|].
    rewrite <- (keeps_procedure _ _ v K) in N. split; [congruence|]. exists 1. intros fuel L. split; [congruence|]. intros _. destruct fuel as [|fuel]; [lia|].
    destruct A as [->|A]; [reflexivity|]. apply (keeps_atomic _ _ _ K) in A. destruct A as [b|p n P|p P]; cbn [fill_in_parts]; rewrite ?P; reflexivity.
  Qed.
  Lemma fills_thunk k k' p n x H : nth_error (nodes s) p = Some (Label n) -> means (Ptr p) x -> keeps (nodes s) H -> fills k k' (Ptr p) H x H.
  Proof.
    intros P M K. split; [exact M|]. split; [apply keeps_refl|]. split; [intros q _; reflexivity|]. split; [reflexivity|]. split; [reflexivity|].
    assert (T : procedurep (nodes s) (Ptr p) = true) by (cbn; rewrite P; reflexivity).
    destruct (means_unthunk _ _ M T H K) as (f0 & F). exists f0. intros fuel L. split; [intros _; apply F, L|]. rewrite (keeps_procedure _ _ _ K). congruence.
  Qed.

  (** A pair at k2 whose parts are filled *)
  Lemma fills_pair k k1 k2 a d H : k <= k1 -> k1 <= k2 -> keeps (nodes s) H -> nth_error (nodes s) k2 = Some (Cons a d) -> nth_error H k2 = Some (Cons a d) ->
    forall xa Ha, fills k k1 a H xa Ha ->
    (forall H1, keeps (nodes s) H1 -> same_on k1 k2 H H1 -> exists xd Hd, fills k1 k2 d H1 xd Hd) ->
    exists xd H1 Hd H', fills k1 k2 d H1 xd Hd /\ keeps (nodes s) H1 /\ same_on k1 k2 H H1 /\ fills k (S k2) (Ptr k2) H (Ptr k2) H' /\ nth_error H' k2 = Some (Cons xa xd) /\
      same_on k k1 Ha H' /\ same_on k1 k2 Hd H'.
  Proof.
    intros L1 L2 K P0 P xa Ha (Ma & Ka & Oa & Na & Ea & fa & Fa) Sub.
    set (H1 := if procedurep H a then update H k2 (Cons xa d) else Ha).
    assert (P1 : nth_error H1 k2 = Some (Cons xa d)).
    { unfold H1. destruct (procedurep H a) eqn:T; [eapply nth_update_same, P|]. rewrite Oa by lia. rewrite P. do 2 f_equal.
      symmetry. eapply means_self; [exact Ma|]. rewrite <- (keeps_procedure _ _ _ K). exact T. }
    assert (K1 : keeps H H1). { unfold H1. destruct (procedurep H a); [eapply keeps_update; [exact P|exact Logic.I]|exact Ka]. }
    assert (On1 : forall p, ~ (k <= p < k1) -> p <> k2 -> nth_error H1 p = nth_error H p).
    { intros p N N'. unfold H1. destruct (procedurep H a); [apply nth_update_other; congruence|apply Oa, N]. }
    assert (In1 : same_on k k1 Ha H1).
    { intros p Lp. unfold H1. destruct (procedurep H a) eqn:T; [|reflexivity]. rewrite (Ea eq_refl). apply nth_update_other. lia. }
    assert (Len1 : length H1 = length H) by (unfold H1; destruct (procedurep H a); [apply length_update|exact Na]).
    assert (Kn1 : keeps (nodes s) H1) by (eapply keeps_trans; eassumption).
    assert (S1 : same_on k1 k2 H H1) by (intros p Lp; apply On1; lia).
    destruct (Sub H1 Kn1 S1) as (xd & Hd & Fd). pose proof Fd as (Md & Kd & Od & Nd & Ed & fd & Fd').
    set (H' := if procedurep H1 d then update H1 k2 (Cons xa xd) else Hd).
    assert (P' : nth_error H' k2 = Some (Cons xa xd)).
    { unfold H'. destruct (procedurep H1 d) eqn:T; [eapply nth_update_same, P1|]. rewrite Od by lia. rewrite P1. do 2 f_equal.
      symmetry. eapply means_self; [exact Md|]. rewrite <- (keeps_procedure _ _ _ Kn1). exact T. }
    assert (K' : keeps H1 H'). { unfold H'. destruct (procedurep H1 d); [eapply keeps_update; [exact P1|exact Logic.I]|exact Kd]. }
    assert (On' : forall p, ~ (k1 <= p < k2) -> p <> k2 -> nth_error H' p = nth_error H1 p).
    { intros p N N'. unfold H'. destruct (procedurep H1 d); [apply nth_update_other; congruence|apply Od, N]. }
    exists xd, H1, Hd, H'. split; [exact Fd|]. split; [exact Kn1|]. split; [exact S1|]. split; [|split; [exact P'|split]].
    - split; [constructor; cbn; rewrite P0; reflexivity|]. split; [eapply keeps_trans; eassumption|]. split.
      { intros p N. rewrite On' by lia. apply On1; lia. }
      split; [unfold H'; destruct (procedurep H1 d); [rewrite length_update; exact Len1|congruence]|].
      split; [cbn; rewrite P; discriminate|]. exists (S (Nat.max fa fd)). intros fuel L. cbn [procedurep]. rewrite P. split; [discriminate|]. intros _.
      destruct fuel as [|fuel]; [lia|]. cbn [fill_in_parts]. rewrite P. destruct (Fa fuel ltac:(lia)) as [Fa1 Fa2]. destruct (Fd' fuel ltac:(lia)) as [Fd1 Fd2].
      assert (Step : (if procedurep H a then y <- unthunk fuel H (variables s) a; Done (update H k2 (Cons y d)) else fill_in_parts fuel (variables s) H a) = Done H1).
      { unfold H1. destruct (procedurep H a); [rewrite (Fa1 eq_refl); reflexivity|exact (Fa2 eq_refl)]. }
      rewrite Step. cbn [rbind]. rewrite P1. unfold H'. destruct (procedurep H1 d); [rewrite (Fd1 eq_refl); reflexivity|exact (Fd2 eq_refl)].
    - intros p Lp. rewrite On' by lia. apply In1, Lp.
    - intros p Lp. unfold H'. destruct (procedurep H1 d) eqn:T; [|reflexivity]. rewrite (Ed eq_refl). apply nth_update_other. lia.
  Qed.

  Lemma raw_le : (forall E k ts v E' k', raw s E k ts v E' k' -> k <= k') /\ (forall E k ts v E' k', raw_rest s E k ts v E' k' -> k <= k') /\
    (forall E k ts vs E' k', raw_all s E k ts vs E' k' -> k <= k').
  Proof. apply raw_ind3; intros; lia. Qed.

  (** Addresses in a range, each once *)
  Lemma disjoint_nil lo hi : NoDup (@nil nat) /\ forall q, In q [] -> lo <= q < hi.
  Proof. split; [constructor|intros q []]. Qed.
  Lemma disjoint_app lo mid hi (A B : list nat) : lo <= mid -> mid <= hi -> NoDup A /\ (forall q, In q A -> lo <= q < mid) -> NoDup B /\ (forall q, In q B -> mid <= q < hi) ->
    NoDup (A ++ B) /\ forall q, In q (A ++ B) -> lo <= q < hi.
  Proof.
    intros L1 L2 (NA & RA) (NB & RB). split.
    - induction NA as [|x A NI NA IH]; [exact NB|]. cbn. constructor.
      + intros I. apply in_app_or in I. destruct I as [I|I]; [contradiction|]. specialize (RA x (or_introl eq_refl)). specialize (RB x I). lia.
      + apply IH. intros q J. apply RA. right. exact J.
    - intros q J. apply in_app_or in J. destruct J as [J|J]; [specialize (RA q J)|specialize (RB q J)]; lia.
  Qed.
  Lemma disjoint_cons lo mid p (A : list nat) : lo <= mid -> mid <= p -> NoDup A /\ (forall q, In q A -> lo <= q < p) ->
    NoDup (p :: A) /\ forall q, In q (p :: A) -> lo <= q < S p.
  Proof.
    intros L1 L2 (NA & RA). split.
    - constructor; [|exact NA]. intros I. specialize (RA p I). lia.
    - intros q [<-|J]; [lia|]. specialize (RA q J). lia.
  Qed.
  Definition filling (E : list nat) (k : nat) (ts : list token) (v : val) (E' : list nat) (k' : nat) : Prop :=
    forall H, keeps (nodes s) H -> same_on k k' (nodes s) H ->
    exists x H', fills k k' v H x H' /\
      forall H2, keeps (nodes s) H2 -> same_on k k' H' H2 -> exists D, tells H2 (names E) ts x (names E') D /\ NoDup D /\ forall q, In q D -> k <= q < k'.
  Definition filling_rest (E : list nat) (k : nat) (ts : list token) (v : val) (E' : list nat) (k' : nat) : Prop :=
    forall H, keeps (nodes s) H -> same_on k k' (nodes s) H ->
    exists x H', fills k k' v H x H' /\
      forall H2, keeps (nodes s) H2 -> same_on k k' H' H2 -> exists D, tells_rest H2 (names E) ts x (names E') D /\ NoDup D /\ forall q, In q D -> k <= q < k'.
  Definition filling_all (E : list nat) (k : nat) (ts : list token) (vs : list val) (E' : list nat) (k' : nat) : Prop :=
    forall H p before, k' <= p -> keeps (nodes s) H -> same_on k k' (nodes s) H -> nth_error H p = Some (Vector (before ++ vs)) ->
    exists xs H', keeps H H' /\ nth_error H' p = Some (Vector (before ++ xs)) /\ (forall q, ~ (k <= q < k') -> q <> p -> nth_error H' q = nth_error H q) /\ length H' = length H /\
      (exists f0, forall fuel, f0 <= fuel ->
        fill_items (fun h x => fill_in_parts fuel (variables s) h x) (fun h x => unthunk fuel h (variables s) x) p (seq (length before) (length vs)) H = Done H') /\
      forall H2, keeps (nodes s) H2 -> same_on k k' H' H2 -> exists D, tells_all H2 (names E) ts xs (names E') D /\ NoDup D /\ forall q, In q D -> k <= q < k'.

  Lemma filled : (forall E k ts v E' k', raw s E k ts v E' k' -> filling E k ts v E' k') /\
    (forall E k ts v E' k', raw_rest s E k ts v E' k' -> filling_rest E k ts v E' k') /\
    (forall E k ts vs E' k', raw_all s E k ts vs E' k' -> filling_all E k ts vs E' k').
  Proof.
    apply raw_ind3.
    - intros E k v A H K On. exists v, H. split; [apply fills_nothing; auto|]. intros H2 K2 _. exists []. split; [constructor; eapply keeps_atomic; eassumption|apply disjoint_nil].
    - intros E k H K On. exists Nil, H. split; [apply fills_nothing; auto|]. intros H2 K2 _. exists []. split; [constructor|apply disjoint_nil].
    - intros E k n p I D P H K On. exists (Ptr (target n)), H. split; [eapply fills_thunk; eauto|]. intros H2 K2 _. exists []. split; [constructor; apply stands_names, I|apply disjoint_nil].
    - intros E k n ts q E' k' N U P D V R IH H K On. destruct (IH H K) as (x & H' & F & Sh); [intros p L; apply On; lia|].
      assert (Ex : x = Ptr (target n)).
      { destruct F as (M & _). eapply means_unique; [|eapply M_thunk; [exact P|exact V|exact M]]. apply target_means, D. }
      exists x, H'. split.
      { destruct F as (M & K' & O & N' & Eq & G). repeat split; auto. intros p L. apply O. lia. }
      intros H2 K2 On2. subst x. destruct (Sh H2 K2) as (D' & T & ND & B); [intros p L; apply On2; lia|]. exists D'. split; [apply Tells_decl; [apply fresh_names, N|exact U|exact T]|].
      split; [exact ND|]. intros r J. specialize (B r J). lia.
    - intros E k ts us a d E1 k1 E2 k2 R1 IH1 R2 IH2 P H K On.
      pose proof (proj1 raw_le _ _ _ _ _ _ R1) as L1. pose proof (proj1 (proj2 raw_le) _ _ _ _ _ _ R2) as L2.
      destruct (IH1 H K) as (xa & Ha & Fa & Sa); [intros p L; apply On; lia|].
      assert (PH : nth_error H k2 = Some (Cons a d)) by (rewrite On by lia; exact P).
      destruct (fills_pair k k1 k2 a d H L1 L2 K P PH xa Ha Fa) as (xd & H1 & Hd & H' & Fd & K1 & S1 & F' & P' & Oa & Od).
      { intros H1 K1 S1. destruct (IH2 H1 K1) as (xd & Hd & Fd & _); [|eauto]. intros p L. rewrite S1 by lia. apply On. lia. }
      assert (Sd : forall H2, keeps (nodes s) H2 -> same_on k1 k2 Hd H2 -> exists D, tells_rest H2 (names E1) us xd (names E2) D /\ NoDup D /\ forall q, In q D -> k1 <= q < k2).
      { destruct (IH2 H1 K1) as (xd' & Hd' & Fd' & Sd); [intros p L; rewrite S1 by lia; apply On; lia|].
        destruct Fd as (M & _ & _ & _ & T1 & f & G). destruct Fd' as (M' & _ & _ & _ & T1' & f' & G').
        assert (xd' = xd) as -> by (eapply means_unique; eassumption).
        assert (Hd' = Hd) as ->; [|exact Sd]. destruct (procedurep H1 d) eqn:T; [rewrite T1, T1' by reflexivity; reflexivity|].
        destruct (G (Nat.max f f') ltac:(lia)) as [_ X]. destruct (G' (Nat.max f f') ltac:(lia)) as [_ Y]. specialize (X eq_refl). specialize (Y eq_refl). congruence. }
      exists (Ptr k2), H'. split; [exact F'|]. intros H2 K2 On2.
      destruct (Sa H2 K2) as (D1 & T1 & ND1 & B1); [intros p L; rewrite On2 by lia; apply Oa, L|].
      destruct (Sd H2 K2) as (D2 & T2 & ND2 & B2); [intros p L; rewrite On2 by lia; apply Od, L|].
      exists (k2 :: D1 ++ D2). split; [eapply Tells_pair; [rewrite On2 by lia; exact P'|exact T1|exact T2]|].
      apply (disjoint_cons k k1 k2 (D1 ++ D2)); auto. apply (disjoint_app k k1 k2); auto.
    - intros E k ts vs E1 k1 k2 R IH L P H K On. pose proof (proj2 (proj2 raw_le) _ _ _ _ _ _ R) as L1.
      assert (PH : nth_error H k2 = Some (Vector vs)) by (rewrite On by lia; exact P).
      destruct (IH H k2 [] L K) as (xs & H' & K' & P' & O & Len & (f & F) & Sh); [intros p Lp; apply On; lia|exact PH|].
      exists (Ptr k2), H'. split.
      { split; [constructor; cbn; rewrite P; reflexivity|]. split; [exact K'|]. split; [intros p N; apply O; lia|]. split; [exact Len|].
        split; [cbn; rewrite PH; discriminate|]. exists (S f). intros fuel Lf. cbn [procedurep]. rewrite PH. split; [discriminate|]. intros _. destruct fuel as [|fuel]; [lia|].
        cbn [fill_in_parts]. rewrite PH. apply (F fuel). lia. }
      intros H2 K2 On2. destruct (Sh H2 K2) as (D & T & ND & B); [intros p Lp; apply On2; lia|].
      exists (own xs k2 ++ D). split; [eapply Tells_vector; [rewrite On2 by lia; exact P'|exact T]|].
      destruct xs; cbn [own app].
      + split; [exact ND|]. intros q J. specialize (B q J). lia.
      + apply (disjoint_cons k k1 k2 D); auto. split; [exact ND|]. intros q J. specialize (B q J). lia.
    - intros E k H K On. exists Nil, H. split; [apply fills_nothing; auto|]. intros H2 K2 _. exists []. split; [constructor|apply disjoint_nil].
    - intros E k ts v E' k' R IH H K On. destruct (IH H K On) as (x & H' & F & Sh). exists x, H'. split; [exact F|]. intros H2 K2 On2. destruct (Sh H2 K2 On2) as (D & T & ND & B). exists D. split; [constructor; exact T|auto].
    - intros E k ts us a d E1 k1 E2 k2 R1 IH1 R2 IH2 P H K On.
      pose proof (proj1 raw_le _ _ _ _ _ _ R1) as L1. pose proof (proj1 (proj2 raw_le) _ _ _ _ _ _ R2) as L2.
      destruct (IH1 H K) as (xa & Ha & Fa & Sa); [intros p L; apply On; lia|].
      assert (PH : nth_error H k2 = Some (Cons a d)) by (rewrite On by lia; exact P).
      destruct (fills_pair k k1 k2 a d H L1 L2 K P PH xa Ha Fa) as (xd & H1 & Hd & H' & Fd & K1 & S1 & F' & P' & Oa & Od).
      { intros H1 K1 S1. destruct (IH2 H1 K1) as (xd & Hd & Fd & _); [|eauto]. intros p L. rewrite S1 by lia. apply On. lia. }
      assert (Sd : forall H2, keeps (nodes s) H2 -> same_on k1 k2 Hd H2 -> exists D, tells_rest H2 (names E1) us xd (names E2) D /\ NoDup D /\ forall q, In q D -> k1 <= q < k2).
      { destruct (IH2 H1 K1) as (xd' & Hd' & Fd' & Sd); [intros p L; rewrite S1 by lia; apply On; lia|].
        destruct Fd as (M & _ & _ & _ & T1 & f & G). destruct Fd' as (M' & _ & _ & _ & T1' & f' & G').
        assert (xd' = xd) as -> by (eapply means_unique; eassumption).
        assert (Hd' = Hd) as ->; [|exact Sd]. destruct (procedurep H1 d) eqn:T; [rewrite T1, T1' by reflexivity; reflexivity|].
        destruct (G (Nat.max f f') ltac:(lia)) as [_ X]. destruct (G' (Nat.max f f') ltac:(lia)) as [_ Y]. specialize (X eq_refl). specialize (Y eq_refl). congruence. }
      exists (Ptr k2), H'. split; [exact F'|]. intros H2 K2 On2.
      destruct (Sa H2 K2) as (D1 & T1 & ND1 & B1); [intros p L; rewrite On2 by lia; apply Oa, L|].
      destruct (Sd H2 K2) as (D2 & T2 & ND2 & B2); [intros p L; rewrite On2 by lia; apply Od, L|].
      exists (k2 :: D1 ++ D2). split; [eapply TRest_pair; [rewrite On2 by lia; exact P'|exact T1|exact T2]|].
      apply (disjoint_cons k k1 k2 (D1 ++ D2)); auto. apply (disjoint_app k k1 k2); auto.
    - intros E k H p before L K On P. exists [], H. split; [apply keeps_refl|]. split; [exact P|]. split; [reflexivity|]. split; [reflexivity|].
      split; [exists 0; reflexivity|]. intros. exists []. split; [constructor|apply disjoint_nil].
    - intros E k ts v us vs E1 k1 E2 k2 R1 IH1 R2 IH2 H p before L K On P.
      pose proof (proj1 raw_le _ _ _ _ _ _ R1) as L1. pose proof (proj2 (proj2 raw_le) _ _ _ _ _ _ R2) as L2.
      destruct (IH1 H K) as (x & Hx & (Mx & Kx & Ox & Nx & Ex & fx & Fx) & Sx); [intros q Lq; apply On; lia|].
      set (H1 := if procedurep H v then update H p (Vector (before ++ x :: vs)) else Hx).
      assert (P1 : nth_error H1 p = Some (Vector (before ++ x :: vs))).
      { unfold H1. destruct (procedurep H v) eqn:T; [eapply nth_update_same, P|]. rewrite Ox by lia. rewrite P. do 4 f_equal.
        symmetry. eapply means_self; [exact Mx|]. rewrite <- (keeps_procedure _ _ _ K). exact T. }
      assert (K1 : keeps H H1). { unfold H1. destruct (procedurep H v); [eapply keeps_update; [exact P|exact Logic.I]|exact Kx]. }
      assert (On1 : forall q, ~ (k <= q < k1) -> q <> p -> nth_error H1 q = nth_error H q).
      { intros q N N'. unfold H1. destruct (procedurep H v); [apply nth_update_other; congruence|apply Ox, N]. }
      assert (In1 : same_on k k1 Hx H1).
      { intros q Lq. unfold H1. destruct (procedurep H v) eqn:T; [|reflexivity]. rewrite (Ex eq_refl). apply nth_update_other. lia. }
      assert (Len1 : length H1 = length H) by (unfold H1; destruct (procedurep H v); [apply length_update|exact Nx]).
      destruct (IH2 H1 p (before ++ [x]) L) as (xs & H' & K' & P' & O' & Len' & (f & F) & Sh).
      { eapply keeps_trans; eassumption. } { intros q Lq. rewrite On1 by lia. apply On. lia. } { rewrite P1, <- app_assoc. reflexivity. }
      exists (x :: xs), H'. split; [eapply keeps_trans; eassumption|]. split; [rewrite P', <- app_assoc; reflexivity|]. split.
      { intros q N N'. rewrite O' by lia. apply On1; lia. }
      split; [congruence|]. split.
      { exists (Nat.max fx f). intros fuel Lf. cbn [length seq fill_items]. rewrite P, nth_error_app2, Nat.sub_diag by lia. cbn [nth_error].
        destruct (Fx fuel ltac:(lia)) as [F1 F2]. specialize (F fuel ltac:(lia)). rewrite app_length in F. cbn [length] in F. rewrite Nat.add_1_r in F.
        rewrite firstn_app, Nat.sub_diag, firstn_all, app_nil_r, skipn_app, skipn_all2, (Nat.sub_succ_l _ _ (Nat.le_refl _)), Nat.sub_diag by lia. cbn [app skipn].
        assert (Step : (if procedurep H v then y <- unthunk fuel H (variables s) v; Done (update H p (Vector (before ++ y :: vs))) else fill_in_parts fuel (variables s) H v) = Done H1).
        { unfold H1. destruct (procedurep H v); [rewrite (F1 eq_refl); reflexivity|exact (F2 eq_refl)]. }
        rewrite Step. cbn [rbind]. exact F. }
      intros H2 K2 On2.
      destruct (Sx H2 K2) as (D1 & T1 & ND1 & B1); [intros q Lq; rewrite On2 by lia; rewrite O' by lia; apply In1, Lq|].
      destruct (Sh H2 K2) as (D2 & T2 & ND2 & B2); [intros q Lq; apply On2; lia|].
      exists (D1 ++ D2). split; [eapply TAll_cons; eassumption|]. apply (disjoint_app k k1 k2); auto.
  Qed.
End Fill.

(** The objects that thunks stand for *)
Fixpoint resolve (s : reader) (fuel : nat) (p : nat) : nat :=
  match fuel with
  | O => p
  | S fuel => match variable p (variables s) with
              | Some (Ptr q) => if procedurep (nodes s) (Ptr q) then resolve s fuel q else q
              | _ => p
              end
  end.
Lemma resolve_means s lo : (forall p n, nth_error (nodes s) p = Some (Label n) -> lo <= p) -> initialised s lo ->
  forall fuel p n, nth_error (nodes s) p = Some (Label n) -> p < fuel -> means s (Ptr p) (Ptr (resolve s fuel p)).
Proof.
  intros B I. induction fuel as [|fuel IH]; intros p n P L; [lia|]. destruct (I p n (B p n P) P) as (q & V & Lq & T). cbn [resolve]. rewrite V.
  eapply M_thunk; [exact P|exact V|]. destruct (procedurep (nodes s) (Ptr q)) eqn:Q; [|constructor; exact Q].
  cbn in Q. destruct (nth_error (nodes s) q) as [[]|] eqn:Nq; try discriminate Q. eapply IH; [exact Nq|]. assert (q < p) by (apply T; exists n0; exact Nq). lia.
Qed.

Theorem read_shared_tells : forall h0 ts v0 h rest, depicts h0 ts v0 -> grounded [] ts ->
  (forall v, In (TAtom v) ts -> atomic h v) -> (forall p n, nth_error h p <> Some (Label n)) ->
  exists v h' f0, (forall fuel, f0 <= fuel -> read_shared fuel h (ts ++ rest) = Done (Object v, h', rest)) /\
    (forall q, q < length h -> nth_error h' q = nth_error h q) /\ exists E D, tells h' [] ts v E D /\ NoDup D.
Proof.
  intros h0 ts v0 h rest (E & D) G A NL.
  destruct (proj1 (reading h0) _ _ _ _ D (Reader h [] []) [] [] ltac:(constructor; [intros ? ? []|discriminate]) eq_refl eq_refl G A)
    as (t & ts' & v & s' & Ets & L & (f & F) & R & _ & Th & W).
  cbn [nodes] in W. specialize (W s' (extends_refl s')). pose proof (rd_ext _ _ _ R) as X. cbn [nodes] in X.
  set (target := fun n => match declared n (parts_alist s') with Some p => resolve s' (S p) p | None => 0 end).
  assert (B : forall p n, nth_error (nodes s') p = Some (Label n) -> length h <= p).
  { intros p n P. destruct (Nat.lt_ge_cases p (length h)) as [K|K]; [|exact K]. rewrite (ex_nodes _ _ X p K) in P. destruct (NL _ _ P). }
  assert (TM : forall n p, declared n (parts_alist s') = Some p -> means s' (Ptr p) (Ptr (target n))).
  { intros n p H. unfold target. rewrite H. eapply resolve_means; [exact B|exact (rd_init _ _ _ R)|apply (inv_parts _ (rd_inv _ _ _ R)), declared_in, H|lia]. }
  assert (NT : procedurep (nodes s') v = false).
  { destruct v as [| |q]; try reflexivity. destruct (Th q eq_refl) as (_ & T). cbn. destruct (nth_error (nodes s') q) as [[]|] eqn:Nq; try reflexivity.
    destruct T as (m & []). exists n. exact Nq. }
  destruct (proj1 (filled s' target TM) _ _ _ _ _ _ W (nodes s') (keeps_refl _) ltac:(intros p _; reflexivity)) as (x & H' & (M & K & O & Len & _ & g & Fl) & Sh).
  apply (means_self _ _ _ M) in NT as Ex. subst x. pose proof (decls_finishes (Reader h [] []) t ts' v s' (ex_intro _ f F)) as (f1 & F1). exists v, H', (Nat.max f1 g). split; [|split].
  - intros fuel Lf. subst ts. cbn [read_shared app]. rewrite F1 by lia. cbn [rbind]. destruct (Fl fuel ltac:(lia)) as [_ Fl']. rewrite (Fl' NT). reflexivity.
  - intros q Lq. rewrite O by lia. apply (ex_nodes _ _ X), Lq.
  - destruct (Sh H' K ltac:(intros p _; reflexivity)) as (D' & T & ND & _). exists (names target (map fst E)), D'. split; assumption.
Qed.
Theorem read_shared_ok : forall h0 ts v0 h rest, depicts h0 ts v0 -> grounded [] ts ->
  (forall v, In (TAtom v) ts -> atomic h v) -> (forall p n, nth_error h p <> Some (Label n)) ->
  exists v h' f0, (forall fuel, f0 <= fuel -> read_shared fuel h (ts ++ rest) = Done (Object v, h', rest)) /\
    (forall q, q < length h -> nth_error h' q = nth_error h q) /\ depicts h' ts v.
Proof.
  intros h0 ts v0 h rest P G A NL. destruct (read_shared_tells h0 ts v0 h rest P G A NL) as (v & h' & f & R & K & E & D & T & _).
  exists v, h', f. split; [exact R|]. split; [exact K|]. exists E. eapply tells_shows. exact T.
Qed.
