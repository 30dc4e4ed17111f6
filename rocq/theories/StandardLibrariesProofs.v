(** Proofs about the standard libraries (C123). *)
From Coq Require Import String List Bool.
From Verif Require Import StandardLibraries StandardLibrariesSpec.
Import ListNotations.
Open Scope string_scope.

Definition has (n : string) (ns : list string) : bool := existsb (String.eqb n) ns.
Lemma has_in n ns : has n ns = true <-> In n ns.
Proof.
  unfold has. rewrite existsb_exists. split; [intros (m & H & E); apply String.eqb_eq in E; subst; exact H|intros H; exists n; split; [exact H|apply String.eqb_refl]].
Qed.
Fixpoint distinct (ns : list string) : bool := match ns with [] => true | n :: ns => negb (has n ns) && distinct ns end.
Lemma distinct_ok ns : distinct ns = true -> NoDup ns.
Proof.
  induction ns as [|n ns IH]; intros H; [constructor|]. cbn [distinct] in H. apply andb_true_iff in H. destruct H as [A B]. constructor; [|exact (IH B)].
  intros K. apply has_in in K. rewrite K in A. discriminate.
Qed.
Lemma lookup_in {A} n (e : list (string * A)) x : lookup n e = Some x -> In (n, x) e.
Proof.
  induction e as [|[m y] e IH]; intros H; [discriminate|]. cbn [lookup] in H. destruct (m =? n) eqn:E; [apply String.eqb_eq in E; injection H as <-; subst; left; reflexivity|right; exact (IH H)].
Qed.
Lemma lookup_nodup {A} n (e : list (string * A)) x : NoDup (map fst e) -> In (n, x) e -> lookup n e = Some x.
Proof.
  induction e as [|[m y] e IH]; intros D H; [destruct H|]. cbn [map fst] in D. inversion_clear D as [|? ? N D']. cbn [lookup]. destruct H as [H|H].
  - injection H as <- <-. rewrite String.eqb_refl. reflexivity.
  - destruct (m =? n) eqn:E; [|exact (IH D' H)]. apply String.eqb_eq in E. subst. exfalso. apply N. apply (in_map fst) in H. exact H.
Qed.
Lemma identical_eq x : forall y, identical x y = true -> x = y.
Proof.
  induction x as [l n|l n|x IH|l n x IH]; intros [k m|k m|y|k m y]; cbn [identical]; try discriminate; rewrite ?andb_true_iff, ?String.eqb_eq.
  - intros [-> ->]. reflexivity.
  - intros [-> ->]. reflexivity.
  - intros H. rewrite (IH y H). reflexivity.
  - intros [[-> ->] H]. rewrite (IH y H). reflexivity.
Qed.
Lemma same_eq x y : same x y = true -> x = y.
Proof. intros H. apply identical_eq. destruct x, y; (exact H || discriminate H). Qed.

(** ** The tables *)
Section Tables.
Variable libraries : list (string * bindings).
Definition exports_ok (a : string * list string) : bool :=
  match lookup (fst a) libraries with
  | Some xs => let ns := map fst xs in distinct ns && forallb (fun n => has n (snd a)) ns && forallb (fun n => has n ns) (snd a)
  | None => false
  end.
Hypothesis exports_checked : forallb exports_ok appendix_a = true.
Fixpoint origin (x : identity) : option (string * string) := match x with Defined l n => Some (l, n) | Unbound _ _ => None | Made x | Held _ _ x => origin x end.
Lemma origin_ok x l n : origin x = Some (l, n) -> stands_for x l n.
Proof. induction x as [k m|k m|x IH|k m x IH]; cbn; intros H; [injection H as -> ->; constructor|discriminate|constructor; exact (IH H)|constructor; exact (IH H)]. Qed.
Definition defined_in (l n : string) : bool :=
  existsb (fun b => (fst b =? l) && has n (snd b)) builtin || existsb (fun d => (library_name d =? l) && has n (definitions d)) declared.
Lemma defined_in_ok l n : defined_in l n = true -> is_definition l n.
Proof.
  unfold defined_in. rewrite orb_true_iff, !existsb_exists. intros [([k ns] & H & E)|(d & H & E)]; apply andb_true_iff in E; destruct E as [E K]; apply String.eqb_eq in E; apply has_in in K.
  - left. exists ns. cbn in E, K. subst. auto.
  - right. exists d. auto.
Qed.
Definition bound_ok (a : string * list string) : bool :=
  match lookup (fst a) libraries with
  | Some xs => forallb (fun x => ((fst a =? "scheme r5rs") && (fst x =? "interaction-environment")) || has (fst x) auxiliary ||
                                 match origin (snd x) with Some (l, n) => defined_in l n | None => false end) xs
  | None => false
  end.
Hypothesis bound_checked : forallb bound_ok appendix_a = true.

(** ** Importing several libraries *)
Lemma import_all_ok xs : forall e, NoDup (map fst xs) -> (forall n x y, In (n, x) xs -> lookup n e = Some y -> same x y = true) ->
  exists e', import_all xs e = Some e' /\ forall n, lookup n e' = match lookup n e with Some y => Some y | None => lookup n xs end.
Proof.
  induction xs as [|[n x] xs IH]; intros e D H; [exists e; split; [reflexivity|intros n; cbn; destruct (lookup n e); reflexivity]|].
  cbn [map fst] in D. inversion_clear D as [|? ? N D']. cbn [import_all]. destruct (lookup n e) as [y|] eqn:L.
  - rewrite (H n x y (or_introl eq_refl) L). destruct (IH e D') as (e' & E & K); [intros m z w M W; exact (H m z w (or_intror M) W)|]. exists e'. split; [exact E|].
    intros m. rewrite K. cbn [lookup]. destruct (n =? m) eqn:Q; [|reflexivity]. apply String.eqb_eq in Q. subst. rewrite L. reflexivity.
  - destruct (IH ((n, x) :: e) D') as (e' & E & K).
    + intros m z w M W. cbn [lookup] in W. destruct (n =? m) eqn:Q; [|exact (H m z w (or_intror M) W)]. apply String.eqb_eq in Q. subst. exfalso. apply N. apply (in_map fst) in M. exact M.
    + exists e'. split; [exact E|]. intros m. rewrite K. cbn [lookup]. destruct (n =? m) eqn:Q; [|reflexivity]. apply String.eqb_eq in Q. subst. rewrite L. reflexivity.
Qed.
Definition clash (l k : string) : bool := (l =? "scheme r5rs") && has k ["scheme read"; "scheme write"; "scheme repl"].
Definition compatible (xs ys : bindings) : bool := forallb (fun x => match lookup (fst x) ys with Some y => same (snd x) y | None => true end) xs.
Definition pair_ok (l k : string) : bool :=
  (l =? k) || clash l k || clash k l || match lookup l libraries, lookup k libraries with Some xs, Some ys => compatible xs ys | _, _ => false end.
Hypothesis pairs_checked : forallb (fun l => forallb (pair_ok l) (map fst appendix_a)) (map fst appendix_a) = true.
Lemma standard_exports l : In l (map fst appendix_a) -> exists xs, lookup l libraries = Some xs /\ NoDup (map fst xs).
Proof.
  intros H. apply in_map_iff in H. destruct H as ([k ns] & <- & H). pose proof exports_checked as C. rewrite forallb_forall in C. specialize (C _ H). unfold exports_ok in C. cbn [fst] in *.
  destruct (lookup k libraries) as [xs|]; [|discriminate]. exists xs. split; [reflexivity|]. rewrite !andb_true_iff in C. destruct C as [[C _] _]. exact (distinct_ok _ C).
Qed.
Lemma standard_pair l k xs ys : In l (map fst appendix_a) -> In k (map fst appendix_a) -> l <> k -> clash l k = false -> clash k l = false ->
  lookup l libraries = Some xs -> lookup k libraries = Some ys -> compatible xs ys = true.
Proof.
  intros L K N C1 C2 X Y. pose proof pairs_checked as P. rewrite forallb_forall in P. specialize (P l L). rewrite forallb_forall in P. specialize (P k K). unfold pair_ok in P.
  rewrite C1, C2, X, Y in P. destruct (l =? k) eqn:E; [apply String.eqb_eq in E; contradiction|exact P].
Qed.
Lemma import_sets_ok : forall todo past e, NoDup (past ++ todo)%list -> (forall l, In l (past ++ todo)%list -> In l (map fst appendix_a)) ->
  (forall l k, In l (past ++ todo)%list -> In k (past ++ todo)%list -> clash l k = false) ->
  (forall n y, lookup n e = Some y -> exists l xs, In l past /\ lookup l libraries = Some xs /\ lookup n xs = Some y) ->
  (forall l xs n x, In l past -> lookup l libraries = Some xs -> lookup n xs = Some x -> lookup n e = Some x) ->
  exists e', import_sets libraries (map Whole todo) e = Some e' /\
    forall l xs n x, In l (past ++ todo)%list -> lookup l libraries = Some xs -> lookup n xs = Some x -> lookup n e' = Some x.
Proof.
  induction todo as [|l todo IH]; intros past e D St Cl From To.
  - exists e. split; [reflexivity|]. rewrite app_nil_r. exact To.
  - destruct (standard_exports l) as (xs & X & Nd); [apply St, in_or_app; right; left; reflexivity|].
    assert (Fresh : ~ In l past) by (apply NoDup_remove_2 in D; intros K; apply D, in_or_app; left; exact K).
    assert (Ok : forall n x y, In (n, x) xs -> lookup n e = Some y -> same x y = true).
    { intros n x y I0 Y. destruct (From n y Y) as (k & ys & K & Ys & W). assert (C : compatible xs ys = true).
      { apply (standard_pair l k xs ys); [apply St, in_or_app; right; left; reflexivity|apply St, in_or_app; left; exact K|intros ->; contradiction| | |exact X|exact Ys];
        apply Cl; apply in_or_app; (left; exact K) || (right; left; reflexivity). }
      unfold compatible in C. rewrite forallb_forall in C. specialize (C _ I0). cbn [fst snd] in C. rewrite W in C. exact C. }
    destruct (import_all_ok xs e Nd Ok) as (e1 & E1 & L1). cbn [map import_sets import_set]. rewrite X, E1. change (l :: todo) with ([l] ++ todo)%list in *. rewrite app_assoc in *.
    apply IH; [exact D|exact St|exact Cl| |].
    + intros n y Y. rewrite L1 in Y. destruct (lookup n e) as [z|] eqn:Z.
      * injection Y as <-. destruct (From n z Z) as (k & ys & K & R). exists k, ys. split; [apply in_or_app; left; exact K|exact R].
      * exists l, xs. split; [apply in_or_app; right; left; reflexivity|]. split; [exact X|exact Y].
    + intros k ys n x K Ys W. rewrite L1. apply in_app_or in K. destruct K as [K|[<-|[]]].
      * rewrite (To k ys n x K Ys W). reflexivity.
      * rewrite X in Ys. injection Ys as <-. destruct (lookup n e) as [z|] eqn:Z; [|exact W]. apply lookup_in in W. rewrite (same_eq _ _ (Ok n x z W Z)). reflexivity.
Qed.
Lemma exports_of l ns : In (l, ns) appendix_a -> exists xs, lookup l libraries = Some xs /\ NoDup (map fst xs) /\ forall n, In n (map fst xs) <-> In n ns.
Proof.
  intros H. pose proof exports_checked as C. rewrite forallb_forall in C. specialize (C _ H). unfold exports_ok in C. cbn [fst snd] in C.
  destruct (lookup l libraries) as [xs|]; [|discriminate]. exists xs. split; [reflexivity|]. rewrite !andb_true_iff in C. destruct C as [[C A] B]. rewrite forallb_forall in A, B.
  split; [exact (distinct_ok _ C)|]. intros n. split; intros K; apply has_in; [exact (A n K)|exact (B n K)].
Qed.
Lemma bound_of l ns n : In (l, ns) appendix_a -> In n ns -> ~ (l = "scheme r5rs" /\ n = "interaction-environment") -> ~ In n auxiliary ->
  exists xs x k m, lookup l libraries = Some xs /\ lookup n xs = Some x /\ stands_for x k m /\ is_definition k m.
Proof.
  intros H N R A. destruct (exports_of l ns H) as (xs & X & D & E). apply E in N. apply in_map_iff in N. destruct N as ([n' x] & <- & N). cbn [fst] in *.
  pose proof bound_checked as C. rewrite forallb_forall in C. specialize (C _ H). unfold bound_ok in C. cbn [fst] in C. rewrite X, forallb_forall in C. specialize (C _ N). cbn [fst snd] in C.
  rewrite !orb_true_iff, andb_true_iff, !String.eqb_eq, has_in in C. destruct C as [[C|C]|C]; [contradiction|contradiction|].
  destruct (origin x) as [[k m]|] eqn:O; [|discriminate]. exists xs, x, k, m. split; [exact X|]. split; [exact (lookup_nodup n' xs x D N)|]. split; [exact (origin_ok _ _ _ O)|exact (defined_in_ok _ _ C)].
Qed.
End Tables.
Lemma exports_checked : forallb (exports_ok libraries) appendix_a = true.
Proof. vm_compute. reflexivity. Qed.
Lemma bound_checked : forallb (bound_ok libraries) appendix_a = true.
Proof. vm_compute. reflexivity. Qed.
Lemma pairs_checked : forallb (fun l => forallb (pair_ok libraries l) (map fst appendix_a)) (map fst appendix_a) = true.
Proof. vm_compute. reflexivity. Qed.
