(** Property theorems about the standard libraries (C123). *)
From Coq Require Import String List Bool.
From Verif Require Import StandardLibraries StandardLibrariesSpec StandardLibrariesProofs.
Import ListNotations.
Open Scope string_scope.

(** The identity stands for the definition m of k *)
Fixpoint stands (k m : string) (x : identity) : bool :=
  match x with Defined l n => (l =? k) && (n =? m) | Unbound _ _ => false | Made x | Held _ _ x => stands k m x end.
Lemma stands_ok k m x : stands k m x = true -> stands_for x k m.
Proof.
  induction x as [l n|l n|x IH|l n x IH]; cbn [stands]; intros H; [|discriminate|constructor; auto|constructor; auto].
  apply andb_true_iff in H. destruct H as [H1 H2]. apply String.eqb_eq in H1, H2. subst. constructor.
Qed.
(** ** C123: the standard libraries export the names of R7RS, bound, and can be imported together *)
(** Each library of appendix A is there and exports exactly the names of appendix A, none twice *)
Theorem C123_exports : forall l ns, In (l, ns) appendix_a ->
  exists xs, lookup l libraries = Some xs /\ NoDup (map fst xs) /\ forall n, In n (map fst xs) <-> In n ns.
Proof. intros l ns. exact (exports_of libraries exports_checked l ns). Qed.
Print Assumptions C123_exports.
(** In part: what is exported stands for a definition, in boot.cpp or in a library.  The whole statement is without the exception of interaction-environment in
    (scheme r5rs); it fails there, see below. *)
Theorem C123_bound_partial : forall l ns n, In (l, ns) appendix_a -> In n ns -> ~ In n auxiliary ->
  ~ (l = "scheme r5rs" /\ n = "interaction-environment") ->
  exists xs x k m, lookup l libraries = Some xs /\ lookup n xs = Some x /\ stands_for x k m /\ is_definition k m.
Proof. intros l ns n H N A R. exact (bound_of libraries exports_checked bound_checked l ns n H N R A). Qed.
Print Assumptions C123_bound_partial.
(** interaction-environment is exported by (scheme r5rs), but it is neither imported nor defined there *)
Theorem C123_unbound_refuted : exists xs x, lookup "scheme r5rs" libraries = Some xs /\ lookup "interaction-environment" xs = Some x /\ forall k m, ~ stands_for x k m.
Proof.
  assert (H : match lookup "scheme r5rs" libraries with Some xs => lookup "interaction-environment" xs | None => None end = Some (Unbound "scheme r5rs" "interaction-environment")) by (vm_compute; reflexivity).
  revert H. generalize (lookup "scheme r5rs" libraries). intros [xs|] H; [|discriminate]. exists xs, (Unbound "scheme r5rs" "interaction-environment"). split; [reflexivity|]. split; [exact H|].
  intros k m S. inversion S.
Qed.
Print Assumptions C123_unbound_refuted.
(** In part: a library may import any number of libraries of appendix A, in any order, and each name is then bound as in the library that exports it.  The whole statement
    is without the two conditions that no library is imported twice and that (scheme r5rs) is not imported together with (scheme read), (scheme write) or (scheme repl);
    it fails without them, see below. *)
Theorem C123_together_partial : forall ls, NoDup ls -> (forall l, In l ls -> In l (map fst appendix_a)) ->
  ~ (In "scheme r5rs" ls /\ (In "scheme read" ls \/ In "scheme write" ls \/ In "scheme repl" ls)) ->
  exists e, import_sets libraries (map Whole ls) [] = Some e /\
    forall l xs n x, In l ls -> lookup l libraries = Some xs -> lookup n xs = Some x -> lookup n e = Some x.
Proof.
  intros ls D St N. apply (import_sets_ok libraries exports_checked pairs_checked ls [] []); [exact D|exact St| |discriminate|intros l xs n x []].
  intros l k L K. destruct (clash l k) eqn:C; [|reflexivity]. exfalso. unfold clash in C. apply andb_true_iff in C. destruct C as [C H]. apply String.eqb_eq in C. apply has_in in H.
  subst l. apply N. split; [exact L|]. destruct H as [<-|[<-|[<-|[]]]]; auto.
Qed.
Print Assumptions C123_together_partial.
(** (scheme r5rs) cannot be imported together with (scheme read), (scheme write) or (scheme repl), and (scheme lazy) not twice; nor can other pairs of libraries that export
    the same bindings: (scheme base) and (scheme r4rs), (scheme box) and (srfi 111) *)
Theorem C123_together_refuted :
  Forall (fun ls => import_sets libraries (map Whole ls) [] = None)
    [["scheme r5rs"; "scheme read"]; ["scheme r5rs"; "scheme write"]; ["scheme r5rs"; "scheme repl"]; ["scheme lazy"; "scheme lazy"]; ["scheme base"; "scheme r4rs"];
     ["scheme box"; "srfi 111"]].
Proof.
  apply Forall_forall. intros ls I0. match goal with H : In _ ?t |- _ => assert (C : forallb (fun ls => match import_sets libraries (map Whole ls) [] with Some _ => false | None => true end) t = true)
    by (vm_compute; reflexivity) end.
  rewrite forallb_forall in C. specialize (C ls I0). revert C. generalize (import_sets libraries (map Whole ls) []). intros [e|] C; [discriminate|reflexivity].
Qed.
Print Assumptions C123_together_refuted.
(** Loading a library leaves the definitions of the other libraries as they are, unless it is (scheme base) *)
Theorem C123_separate_partial : forall d, In d declared -> library_name d <> "scheme base" -> redefined d = [].
Proof.
  assert (H : forallb (fun d => (library_name d =? "scheme base") || match redefined d with [] => true | _ => false end) declared = true) by (vm_compute; reflexivity).
  rewrite forallb_forall in H. intros d I0 N. specialize (H d I0). apply orb_true_iff in H. destruct H as [H|H]; [apply String.eqb_eq in H; contradiction|].
  revert H. generalize (redefined d). intros [|x l] H; [reflexivity|discriminate].
Qed.
Print Assumptions C123_separate_partial.
(** The definitions in (scheme base) of five names that it also imports assign the bindings of (scheme r4rs), which from then on has other procedures *)
Theorem C123_separate_refuted : exists d, In d declared /\ library_name d = "scheme base" /\
  forall n, In n ["char-ready?"; "newline"; "peek-char"; "read-char"; "write-char"] -> In (n, Defined "scheme r4rs" n) (redefined d).
Proof.
  assert (H : existsb (fun d => (library_name d =? "scheme base") &&
      forallb (fun n => existsb (fun x => (fst x =? n) && identical (snd x) (Defined "scheme r4rs" n)) (redefined d)) ["char-ready?"; "newline"; "peek-char"; "read-char"; "write-char"]) declared = true)
    by (vm_compute; reflexivity).
  apply existsb_exists in H. destruct H as (d & D & H). exists d. split; [exact D|]. apply andb_true_iff in H. destruct H as [N H]. split; [apply String.eqb_eq; exact N|].
  rewrite forallb_forall in H. intros n K. specialize (H n K). apply existsb_exists in H. destruct H as ([m x] & I0 & H). apply andb_true_iff in H. destruct H as [E X]. cbn [fst snd] in E, X.
  apply String.eqb_eq in E. apply identical_eq in X. subst. exact I0.
Qed.
Print Assumptions C123_separate_refuted.
(** The modifiers of an import set: only and except choose among its bindings by their
    names; prefix and rename make new bindings with the values of the old ones under the
    new names, rename leaves the bindings it does not mention *)
Theorem C123_modifiers : forall ls s xs, import_set ls s = Some xs ->
  (forall ns, exists ys, import_set ls (Only s ns) = Some ys /\ forall n x, In (n, x) ys <-> In (n, x) xs /\ In n ns) /\
  (forall ns, exists ys, import_set ls (Except s ns) = Some ys /\ forall n x, In (n, x) ys <-> In (n, x) xs /\ ~ In n ns) /\
  (forall p, exists ys, import_set ls (Prefix s p) = Some ys /\ forall n x, In (n, x) ys <-> exists m y, In (m, y) xs /\ n = (p ++ m)%string /\ x = Made y) /\
  (forall rs, exists ys, import_set ls (Rename s rs) = Some ys /\
     forall n x, In (n, x) ys <-> (exists m y, In (m, y) xs /\ lookup m rs = Some n /\ x = Made y) \/ (In (n, x) xs /\ lookup n rs = None)).
Proof.
  intros ls s xs E. assert (M : forall n ns, existsb (String.eqb n) ns = true <-> In n ns).
  { intros n ns. rewrite existsb_exists. split; [intros (m & I0 & Em); apply String.eqb_eq in Em; subst m; exact I0|intros I0; exists n; split; [exact I0|apply String.eqb_refl]]. }
  repeat split; cbn [import_set]; rewrite E; cbn [option_map]; eexists; (split; [reflexivity|]); intros n x.
  - rewrite filter_In. cbn [fst]. rewrite M. reflexivity.
  - rewrite filter_In. cbn [fst]. rewrite negb_true_iff, <- not_true_iff_false, M. reflexivity.
  - rewrite in_map_iff. split.
    + intros ([m y] & Em & I0). injection Em as <- <-. exists m, y. auto.
    + intros (m & y & I0 & -> & ->). exists (m, y). auto.
  - rewrite in_map_iff. split.
    + intros ([m y] & Em & I0). cbn [fst snd] in Em. destruct (lookup m rs) as [k|] eqn:L; injection Em as <- <-; [left; exists m, y; auto|right; auto].
    + intros [(m & y & I0 & L & ->)|(I0 & L)]; [exists (m, y)|exists (n, x)]; cbn [fst snd]; rewrite L; auto.
Qed.
Print Assumptions C123_modifiers.
(** The names that the libraries export for definitions with another name *)
Theorem C123_renamed : forall l n k m, In (l, n, (k, m))
    [("scheme r5rs", "exact->inexact", ("meevax number", "inexact")); ("scheme r5rs", "inexact->exact", ("meevax number", "exact"));
     ("scheme r5rs", "substring", ("meevax string", "string-copy")); ("scheme base", "substring", ("meevax string", "string-copy"));
     ("scheme base", "cond-expand", ("meevax core", "conditional-expand"));
     ("scheme lazy", "delay-force", ("srfi 45", "lazy")); ("scheme lazy", "make-promise", ("srfi 45", "eager"));
     ("scheme box", "unbox", ("meevax box", "box-ref")); ("scheme box", "set-box!", ("meevax box", "box-set!"))] ->
  exists xs x, lookup l libraries = Some xs /\ lookup n xs = Some x /\ stands_for x k m.
Proof.
  intros l n k m I0. match type of I0 with In _ ?t => assert (C : forallb (fun '(l, n, (k, m)) => match lookup l libraries with
    | Some xs => match lookup n xs with Some x => stands k m x | None => false end | None => false end) t = true) by (vm_compute; reflexivity) end.
  rewrite forallb_forall in C. specialize (C _ I0). cbn beta iota in C. revert C. generalize (lookup l libraries). intros [xs|] C; [|discriminate].
  destruct (lookup n xs) as [x|] eqn:L; [|discriminate]. exists xs, x. split; [reflexivity|]. split; [exact L|apply stands_ok, C].
Qed.
Print Assumptions C123_renamed.
Example C123_ex : match import_sets libraries (map Whole ["scheme base"; "scheme write"; "scheme lazy"; "srfi 16"]) [] with
  | Some e => map (fun n => lookup n e) ["car"; "write"; "case-lambda"; "substring"; "make-promise"; "no-such-name"]
  | None => []
  end = [Some (Defined "meevax pair" "car"); Some (Defined "scheme write" "write"); Some (Defined "srfi 16" "case-lambda");
         Some (Held "scheme r5rs" "substring" (Defined "meevax string" "string-copy")); Some (Made (Defined "srfi 45" "eager")); None].
Proof. vm_compute. reflexivity. Qed.
