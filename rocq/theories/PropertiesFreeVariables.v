(** Property theorems about the names that the definitions of the libraries use (C124). *)
From Coq Require Import String List Bool Arith.
From Verif Require Import StandardLibraries StandardLibrariesSpec FreeVariables.
Import ListNotations.
Open Scope string_scope.

(** The name is bound in the library, to a definition of this or of another library *)
Definition has_value (library name : string) : Prop :=
  exists d e x k m, In d declared /\ library_name d = library /\ environment_of d = Some e /\ lookup name e = Some x /\ stands_for x k m.
(** ** C124: the definitions of the libraries use names that are bound *)
(** These are not: library, definition, name *)
Definition not_bound : list (string * string * string) :=
  [("meevax continuation", "exit", "letrec"); ("scheme r4rs", "load", "%interaction-environment"); ("srfi 149", "syntax-rules-transformer", "error");
   ("srfi 9", "field-index", "error"); ("srfi 9", "record-constructor", "error"); ("srfi 9", "record-accessor", "error"); ("srfi 9", "record-modifier", "error")].
Definition triple_eqb (a b : string * string * string) : bool :=
  (fst (fst a) =? fst (fst b)) && (snd (fst a) =? snd (fst b)) && (snd a =? snd b).
Lemma holds_stands x : holds x = true -> exists k m, stands_for x k m.
Proof.
  induction x as [l n|l n|x IH|l n x IH]; cbn [holds]; intros H; [exists l, n; constructor|discriminate| |];
    destruct (IH H) as (k & m & S); exists k, m; constructor; exact S.
Qed.
Lemma stands_holds x k m : stands_for x k m -> holds x = true.
Proof. induction 1; cbn [holds]; auto. Qed.
Lemma names_once : forall l, forallb (fun d => forallb (fun d' => negb (library_name d =? library_name d') || Nat.eqb (List.length (filter (fun x => library_name x =? library_name d) l)) 1) l) l = true ->
  forall d d', In d l -> In d' l -> library_name d = library_name d' -> d = d'.
Proof.
  intros l H d d' I1 I2 Eq. rewrite forallb_forall in H. specialize (H d I1). rewrite forallb_forall in H. specialize (H d' I2).
  rewrite Eq, String.eqb_refl in H. cbn [negb orb] in H. apply PeanoNat.Nat.eqb_eq in H.
  assert (F : forall x, In x l -> library_name x = library_name d' -> In x (filter (fun x => library_name x =? library_name d') l)).
  { intros x Ix Ex. apply filter_In. split; [exact Ix|apply String.eqb_eq, Ex]. }
  pose proof (F d I1 Eq) as F1. pose proof (F d' I2 eq_refl) as F2. revert H F1 F2. generalize (filter (fun x => library_name x =? library_name d') l).
  intros [|x [|y r]] H F1 F2; try discriminate H. destruct F1 as [<-|[]], F2 as [F2|[]]; exact F2.
Qed.
Lemma undefined_spec u n : In n (used u) -> (In n (undefined_in u) <-> ~ has_value (in_library u) n).
Proof.
  intros Iu. unfold undefined_in. destruct (find (fun d => library_name d =? in_library u) declared) as [d|] eqn:Fd.
  - apply find_some in Fd. destruct Fd as [Id Nd]. apply String.eqb_eq in Nd.
    assert (Once : forall d', In d' declared -> library_name d' = in_library u -> d' = d).
    { intros d' I' N'. apply (names_once declared); [vm_compute; reflexivity|exact I'|exact Id|congruence]. }
    destruct (environment_of d) as [e|] eqn:Ee.
    + rewrite filter_In. unfold identified. split.
      * intros [_ H] (d' & e' & x & k & m & I' & N' & E' & L & S). rewrite (Once d' I' N'), Ee in E'. injection E' as <-. rewrite L, (stands_holds _ _ _ S) in H. discriminate.
      * intros H. split; [exact Iu|]. destruct (lookup n e) as [x|] eqn:L; [|reflexivity]. destruct (holds x) eqn:Hx; [|reflexivity]. exfalso. apply H.
        destruct (holds_stands x Hx) as (k & m & S). exists d, e, x, k, m. auto.
    + split; [|intros _; exact Iu]. intros _ (d' & e' & x & k & m & I' & N' & E' & L & S). rewrite (Once d' I' N'), Ee in E'. discriminate.
  - split; [|intros _; exact Iu]. intros _ (d' & e' & x & k & m & I' & N' & _). pose proof (find_none _ _ Fd d' I') as H. cbn beta in H. rewrite N', String.eqb_refl in H. discriminate.
Qed.
Lemma defined_spec u n : In n (used u) -> ~ In n (undefined_in u) -> has_value (in_library u) n.
Proof.
  intros Iu. unfold undefined_in. destruct (find (fun d => library_name d =? in_library u) declared) as [d|] eqn:Fd; [|contradiction].
  apply find_some in Fd. destruct Fd as [Id Nd]. apply String.eqb_eq in Nd. destruct (environment_of d) as [e|] eqn:Ee; [|contradiction].
  intros H. destruct (identified e n) eqn:Hi.
  - unfold identified in Hi. destruct (lookup n e) as [x|] eqn:L; [|discriminate]. destruct (holds_stands x Hi) as (k & m & S). exists d, e, x, k, m. auto.
  - exfalso. apply H, filter_In. split; [exact Iu|]. rewrite Hi. reflexivity.
Qed.
Lemma uses_checked : forallb (fun u => forallb (fun n => existsb (triple_eqb (in_library u, in_definition u, n)) not_bound) (undefined_in u)) uses = true.
Proof. vm_compute. reflexivity. Qed.
Lemma not_bound_checked : forallb (fun x => existsb (fun u => (in_library u =? fst (fst x)) && (in_definition u =? snd (fst x)) && existsb (String.eqb (snd x)) (used u)
    && existsb (String.eqb (snd x)) (undefined_in u)) uses) not_bound = true.
Proof. vm_compute. reflexivity. Qed.
Lemma triple_in x l : existsb (triple_eqb x) l = true -> In x l.
Proof.
  intros H. apply existsb_exists in H. destruct H as (y & I0 & H). destruct x as [[a b] c], y as [[a' b'] c']. unfold triple_eqb in H. cbn [fst snd] in H.
  apply andb_true_iff in H. destruct H as [H H3]. apply andb_true_iff in H. destruct H as [H1 H2].
  apply String.eqb_eq in H1, H2, H3. subst. exact I0.
Qed.
(** In part: every name that a definition of a library uses is bound in the library.  The
    whole statement is without the seven exceptions; it fails for them, see below *)
Theorem C124_bound_partial : forall u n, In u uses -> In n (used u) -> ~ In (in_library u, in_definition u, n) not_bound -> has_value (in_library u) n.
Proof.
  intros u n Iu In' N. apply (defined_spec u n In'). intros H. apply N. pose proof uses_checked as C. rewrite forallb_forall in C.
  specialize (C u Iu). rewrite forallb_forall in C. apply triple_in, C, H.
Qed.
Print Assumptions C124_bound_partial.
(** Each of the seven is used and not bound *)
Lemma not_bound_holds : forall l d n, In (l, d, n) not_bound -> exists u, In u uses /\ in_library u = l /\ in_definition u = d /\ In n (used u) /\ ~ has_value l n.
Proof.
  intros l d n I0. pose proof not_bound_checked as C. rewrite forallb_forall in C. specialize (C _ I0). apply existsb_exists in C. destruct C as (u & Iu & C).
  cbn [fst snd] in C. apply andb_true_iff in C. destruct C as [C C4]. apply andb_true_iff in C. destruct C as [C C3]. apply andb_true_iff in C. destruct C as [C1 C2].
  apply String.eqb_eq in C1, C2. apply existsb_exists in C3, C4. destruct C3 as (n3 & I3 & E3), C4 as (n4 & I4 & E4). apply String.eqb_eq in E3, E4. subst.
  exists u. split; [exact Iu|]. split; [reflexivity|]. split; [reflexivity|]. split; [exact I3|]. apply (undefined_spec u n4 I3), I4.
Qed.
(** load without an environment calls an unbound variable: (load <filename>) of
    (scheme load) cannot load anything (r4rs.ss:382-386) *)
Theorem C124_load_refuted : exists u, In u uses /\ in_library u = "scheme r4rs" /\ in_definition u = "load" /\ In "%interaction-environment" (used u) /\
  ~ has_value "scheme r4rs" "%interaction-environment".
Proof. apply not_bound_holds. cbn. auto 10. Qed.
Print Assumptions C124_load_refuted.
(** The body of exit is a form of letrec, which is not bound there (meevax.ss:92-100);
    C73_exit_refuted has what follows *)
Theorem C124_exit_refuted : exists u, In u uses /\ in_library u = "meevax continuation" /\ in_definition u = "exit" /\ In "letrec" (used u) /\
  ~ has_value "meevax continuation" "letrec".
Proof. apply not_bound_holds. cbn. auto 10. Qed.
Print Assumptions C124_exit_refuted.
(** The messages of (srfi 9) and (srfi 149) are never shown: error is not bound there *)
Theorem C124_error_refuted : forall l d, In (l, d) [("srfi 149", "syntax-rules-transformer"); ("srfi 9", "field-index"); ("srfi 9", "record-constructor");
    ("srfi 9", "record-accessor"); ("srfi 9", "record-modifier")] ->
  exists u, In u uses /\ in_library u = l /\ in_definition u = d /\ In "error" (used u) /\ ~ has_value l "error".
Proof. intros l d H. apply not_bound_holds. cbn in H. repeat (destruct H as [H|H]; [injection H as <- <-; cbn; auto 10|]). contradiction. Qed.
Print Assumptions C124_error_refuted.
(** Some that are bound: dynamic-wind takes cons from (meevax pair), and with-exception-handler throw from (meevax error) *)
Example C124_ex : has_value "meevax continuation" "cons" /\ has_value "srfi 34" "throw" /\ has_value "scheme r4rs" "%load".
Proof.
  assert (H : forall l n, existsb (fun u => (in_library u =? l) && existsb (String.eqb n) (used u) && negb (existsb (triple_eqb (l, in_definition u, n)) not_bound)) uses = true ->
    has_value l n).
  { intros l n Hu. apply existsb_exists in Hu. destruct Hu as (u & Iu & Hu). apply andb_true_iff in Hu. destruct Hu as [Hu Hb]. apply andb_true_iff in Hu. destruct Hu as [Hl Hn].
    apply String.eqb_eq in Hl. subst l. apply existsb_exists in Hn. destruct Hn as (m & Im & Em). apply String.eqb_eq in Em. subst m. apply (C124_bound_partial u n Iu Im). intros B.
    assert (T : existsb (triple_eqb (in_library u, in_definition u, n)) not_bound = true); [|rewrite T in Hb; discriminate].
    apply existsb_exists. exists (in_library u, in_definition u, n). split; [exact B|]. unfold triple_eqb. cbn [fst snd]. rewrite !String.eqb_refl. reflexivity. }
  split; [|split]; apply H; vm_compute; reflexivity.
Qed.
