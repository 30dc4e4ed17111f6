(** C127: the libraries of R7RS-large and the interactive session. *)
From Coq Require Import List String Bool.
From Verif Require Import StandardLibraries StandardLibrariesSpec StandardLibrariesProofs FreeVariables PropertiesFreeVariables MoreLibraries.
Import ListNotations.
Open Scope string_scope.

(** Specification: the index of SRFI 1, 141, 143 and 151, which R7RS-large names (scheme list),
    (scheme division), (scheme fixnum) and (scheme bitwise) *)
Definition srfi_index : list (string * list string) :=
  [("scheme list", words "cons list xcons cons* make-list list-tabulate list-copy circular-list iota pair? null? proper-list? circular-list? dotted-list? not-pair? null-list? list= car cdr caar cadr cdar cddr caaar caadr cadar caddr cdaar cdadr cddar cdddr caaaar caaadr caadar caaddr cadaar cadadr caddar cadddr cdaaar cdaadr cdadar cdaddr cddaar cddadr cdddar cddddr list-ref first second third fourth fifth sixth seventh eighth ninth tenth car+cdr take drop take-right drop-right take! drop-right! split-at split-at! last last-pair length length+ append concatenate reverse append! concatenate! reverse! append-reverse append-reverse! zip unzip1 unzip2 unzip3 unzip4 unzip5 count map for-each fold unfold pair-fold reduce fold-right unfold-right pair-fold-right reduce-right append-map append-map! map! map-in-order pair-for-each filter-map filter partition remove filter! partition! remove! member memq memv find find-tail any every list-index take-while drop-while take-while! span break span! break! delete delete-duplicates delete! delete-duplicates! assoc assq assv alist-cons alist-copy alist-delete alist-delete! lset<= lset= lset-adjoin lset-union lset-union! lset-intersection lset-intersection! lset-difference lset-difference! lset-xor lset-xor! lset-diff+intersection lset-diff+intersection! set-car! set-cdr!");
   ("scheme division", words "floor/ floor-quotient floor-remainder ceiling/ ceiling-quotient ceiling-remainder truncate/ truncate-quotient truncate-remainder round/ round-quotient round-remainder euclidean/ euclidean-quotient euclidean-remainder balanced/ balanced-quotient balanced-remainder");
   ("scheme fixnum", words "fx-width fx-greatest fx-least fixnum? fx=? fx<? fx>? fx<=? fx>=? fxzero? fxpositive? fxnegative? fxodd? fxeven? fxmax fxmin fx+ fx- fxneg fx* fxquotient fxremainder fxabs fxsquare fxsqrt fx+/carry fx-/carry fx*/carry fxnot fxand fxior fxxor fxarithmetic-shift fxarithmetic-shift-left fxarithmetic-shift-right fxbit-count fxlength fxif fxbit-set? fxcopy-bit fxfirst-set-bit fxbit-field fxbit-field-rotate fxbit-field-reverse");
   ("scheme bitwise", words "bitwise-not bitwise-and bitwise-ior bitwise-xor bitwise-eqv bitwise-nand bitwise-nor bitwise-andc1 bitwise-andc2 bitwise-orc1 bitwise-orc2 arithmetic-shift bit-count integer-length bitwise-if bit-set? copy-bit bit-swap any-bit-set? every-bit-set? first-set-bit bit-field bit-field-any? bit-field-every? bit-field-clear bit-field-set bit-field-replace bit-field-replace-same bit-field-rotate bit-field-reverse bits->list list->bits bits->vector vector->bits bits bitwise-fold bitwise-for-each bitwise-unfold make-bitwise-generator")].
(** There is a definition of the name in the library *)
Definition is_definition_here (library name : string) : Prop :=
  (exists ns, In (library, ns) (builtin ++ builtin_more)%list /\ In name ns) \/
  (exists d, In d (declared ++ declared_more)%list /\ library_name d = library /\ In name (definitions d)).

Fixpoint source (x : identity) : string * string := match x with Defined l n | Unbound l n => (l, n) | Made x | Held _ _ x => source x end.
Lemma source_stands x : holds x = true -> stands_for x (fst (source x)) (snd (source x)).
Proof. induction x; cbn [holds source]; intros H; [constructor|discriminate|constructor; auto|constructor; auto]. Qed.
Definition definition_check (k m : string) : bool :=
  existsb (fun a => (fst a =? k) && has m (snd a)) (builtin ++ builtin_more)%list ||
  existsb (fun d => (library_name d =? k) && has m (definitions d)) (declared ++ declared_more)%list.
Lemma definition_check_ok k m : definition_check k m = true -> is_definition_here k m.
Proof.
  unfold definition_check, is_definition_here. generalize (builtin ++ builtin_more)%list (declared ++ declared_more)%list. intros bs ds H.
  apply orb_true_iff in H. destruct H as [H|H]; apply existsb_exists in H; destruct H as (a & I0 & H); apply andb_true_iff in H; destruct H as [E H];
    apply String.eqb_eq in E; apply has_in in H; [left|right].
  - destruct a as [l ns]. cbn in *. subst. exists ns. auto.
  - exists a. auto.
Qed.
Definition bound_check (ls : list (string * bindings)) (ds : list declaration) : bool :=
  forallb (fun d => match lookup (library_name d) ls with
                    | Some xs => forallb (fun x => holds (snd x) && definition_check (fst (source (snd x))) (snd (source (snd x)))) xs
                    | None => false end) ds.
Lemma bound_here : bound_check all_libraries declared_more = true.
Proof. vm_compute. reflexivity. Qed.
Lemma bound_check_ok ls ds : bound_check ls ds = true -> forall d, In d ds -> exists xs, lookup (library_name d) ls = Some xs /\
  forall n x, In (n, x) xs -> exists k m, stands_for x k m /\ is_definition_here k m.
Proof.
  unfold bound_check. rewrite forallb_forall. intros H d D. specialize (H d D). destruct (lookup (library_name d) ls) as [xs|]; [|discriminate].
  exists xs. split; [reflexivity|]. rewrite forallb_forall in H. intros n x I0. specialize (H _ I0). cbn [snd] in H. apply andb_true_iff in H. destruct H as [A B].
  exists (fst (source x)), (snd (source x)). split; [apply source_stands; exact A|apply definition_check_ok; exact B].
Qed.
Definition index_check (ls : list (string * bindings)) (index : list (string * list string)) : bool :=
  forallb (fun a => match lookup (fst a) ls with
                    | Some xs => distinct (map fst xs) && forallb (fun n => has n (snd a)) (map fst xs) &&
                                 ((fst a =? "scheme division") || forallb (fun n => has n (map fst xs)) (snd a))
                    | None => false end) index.
Lemma index_here : index_check all_libraries srfi_index = true.
Proof. vm_compute. reflexivity. Qed.
Lemma index_check_ok ls index : index_check ls index = true -> forall l ns, In (l, ns) index -> exists xs, lookup l ls = Some xs /\ NoDup (map fst xs) /\
  (forall n, In n (map fst xs) -> In n ns) /\ (l <> "scheme division" -> forall n, In n ns -> In n (map fst xs)).
Proof.
  unfold index_check. rewrite forallb_forall. intros H l ns I0. specialize (H _ I0). cbn [fst snd] in H. destruct (lookup l ls) as [xs|]; [|discriminate].
  apply andb_true_iff in H. destruct H as [H C]. apply andb_true_iff in H. destruct H as [A B]. exists xs. split; [reflexivity|]. split; [apply distinct_ok; exact A|].
  rewrite forallb_forall in B. split; [intros n N; apply has_in; exact (B n N)|]. intros D n N. apply orb_true_iff in C. destruct C as [C|C].
  - apply String.eqb_eq in C. contradiction.
  - rewrite forallb_forall in C. apply has_in. exact (C n N).
Qed.
Definition agree_check (ls : list (string * bindings)) (names : list string) (e : option bindings) : bool :=
  match e with
  | Some e => forallb (fun l => match lookup l ls with
      | Some xs => forallb (fun x => match lookup (fst x) e with Some y => identical (snd x) y | None => false end) xs
      | None => false end) names
  | None => false
  end.
Lemma agree_check_ok ls names e : agree_check ls names e = true -> exists e', e = Some e' /\ forall l, In l names ->
  exists xs, lookup l ls = Some xs /\ forall n x, In (n, x) xs -> lookup n e' = Some x.
Proof.
  destruct e as [e|]; [|discriminate]. unfold agree_check. rewrite forallb_forall. intros H. exists e. split; [reflexivity|]. intros l L. specialize (H l L).
  destruct (lookup l ls) as [xs|]; [|discriminate]. exists xs. split; [reflexivity|]. rewrite forallb_forall in H. intros n x I0. specialize (H _ I0). cbn [fst snd] in H.
  destruct (lookup n e) as [y|]; [|discriminate]. apply identical_eq in H. subst. reflexivity.
Qed.
Lemma session_here : agree_check all_libraries session_imports (import_each all_libraries session_imports []) = true.
Proof. vm_compute. reflexivity. Qed.
Lemma program_here : agree_check all_libraries session_imports (import_sets all_libraries (map Whole session_imports) []) = true.
Proof. vm_compute. reflexivity. Qed.

(** Every name that these libraries export stands for a definition, in boot.cpp or in a library *)
Theorem C127_bound : forall d, In d declared_more -> exists xs, lookup (library_name d) all_libraries = Some xs /\
  forall n x, In (n, x) xs -> exists k m, stands_for x k m /\ is_definition_here k m.
Proof. exact (bound_check_ok all_libraries declared_more bound_here). Qed.
Print Assumptions C127_bound.

(** In part: the libraries export the names of the index and no others, each once.  The whole
    statement has no exception for (scheme division). *)
Theorem C127_exports_partial : forall l ns, In (l, ns) srfi_index -> exists xs, lookup l all_libraries = Some xs /\ NoDup (map fst xs) /\
  (forall n, In n (map fst xs) -> In n ns) /\ (l <> "scheme division" -> forall n, In n ns -> In n (map fst xs)).
Proof. exact (index_check_ok all_libraries srfi_index index_here). Qed.
Print Assumptions C127_exports_partial.
(** (scheme division) leaves out the procedures of SRFI 141 that are in (scheme base) too *)
Theorem C127_exports_refuted : exists xs, lookup "scheme division" all_libraries = Some xs /\
  forall n, In n ["floor/"; "floor-quotient"; "floor-remainder"; "truncate/"; "truncate-quotient"; "truncate-remainder"] ->
    ~ In n (map fst xs) /\ exists ns, In ("scheme division", ns) srfi_index /\ In n ns.
Proof.
  assert (H : match lookup "scheme division" all_libraries with Some xs => forallb (fun n => negb (has n (map fst xs)) && existsb (fun a => (fst a =? "scheme division") && has n (snd a)) srfi_index)
     ["floor/"; "floor-quotient"; "floor-remainder"; "truncate/"; "truncate-quotient"; "truncate-remainder"] | None => false end = true) by (vm_compute; reflexivity).
  revert H. generalize (lookup "scheme division" all_libraries). intros [xs|] H; [|discriminate]. exists xs. split; [reflexivity|]. rewrite forallb_forall in H.
  intros n N. specialize (H n N). apply andb_true_iff in H. destruct H as [A B]. split.
  - intros K. apply has_in in K. rewrite K in A. discriminate.
  - apply existsb_exists in B. destruct B as ([l ns] & I0 & B). apply andb_true_iff in B. destruct B as [E B]. apply String.eqb_eq in E. cbn in E. subst. exists ns. split; [exact I0|apply has_in; exact B].
Qed.
Print Assumptions C127_exports_refuted.

(** An interactive session begins with all its libraries: none of the imports fails, and each name
    that one of the libraries exports has the binding of that library, whatever the later imports *)
Theorem C127_session : exists e, import_each all_libraries session_imports [] = Some e /\ forall l, In l session_imports ->
  exists xs, lookup l all_libraries = Some xs /\ forall n x, In (n, x) xs -> lookup n e = Some x.
Proof. exact (agree_check_ok _ _ _ session_here). Qed.
Print Assumptions C127_session.
Lemma lookup_none {A} n (e : list (string * A)) : lookup n e = None <-> ~ In n (map fst e).
Proof.
  induction e as [|[m y] e IH]; cbn [lookup map fst In]; [split; [intros _ []|reflexivity]|]. destruct (m =? n) eqn:E.
  - apply String.eqb_eq in E. split; [discriminate|]. intros H. destruct H. left. exact E.
  - apply String.eqb_neq in E. rewrite IH. split; [intros H [K|K]; [exact (E K)|exact (H K)]|intros H K; apply H; right; exact K].
Qed.
Lemma lookup_rev_append {A} (xs : list (string * A)) : forall e, NoDup (map fst xs) ->
  forall n, lookup n (rev_append xs e) = match lookup n xs with Some x => Some x | None => lookup n e end.
Proof.
  induction xs as [|[m y] xs IH]; intros e D n; [reflexivity|]. cbn [map fst] in D. inversion_clear D as [|? ? N D'].
  cbn [rev_append]. rewrite (IH _ D'). cbn [lookup]. destruct (m =? n) eqn:E.
  - apply String.eqb_eq in E. subst. apply lookup_none in N. rewrite N. reflexivity.
  - reflexivity.
Qed.
(** In the interaction environment an import never fails for a library there is; its bindings hide
    those of the same names, and the others stay *)
Theorem C127_hides : forall ls l xs e, lookup l ls = Some xs -> NoDup (map fst xs) ->
  exists e', import_session ls l e = Some e' /\
    (forall n x, In (n, x) xs -> lookup n e' = Some x) /\ (forall n, ~ In n (map fst xs) -> lookup n e' = lookup n e).
Proof.
  intros ls l xs e L D. exists (rev_append xs e). split; [unfold import_session; change (import_set ls (Whole l)) with (lookup l ls); rewrite L; reflexivity|].
  split; intros n.
  - intros x H. rewrite (lookup_rev_append xs e D), (lookup_nodup n xs x D H). reflexivity.
  - intros H. apply lookup_none in H. rewrite (lookup_rev_append xs e D), H. reflexivity.
Qed.
Print Assumptions C127_hides.
Example C127_hides_ex : import_session [("a b", [("x", Defined "a b" "x"); ("y", Defined "a b" "y")])] "a b" [("x", Defined "c" "x"); ("z", Defined "c" "z")] =
  Some [("y", Defined "a b" "y"); ("x", Defined "a b" "x"); ("x", Defined "c" "x"); ("z", Defined "c" "z")].
Proof. reflexivity. Qed.
(** A program or library may import the same libraries together: no name has two bindings *)
Theorem C127_together : exists e, import_sets all_libraries (map Whole session_imports) [] = Some e /\ forall l, In l session_imports ->
  exists xs, lookup l all_libraries = Some xs /\ forall n x, In (n, x) xs -> lookup n e = Some x.
Proof. exact (agree_check_ok _ _ _ program_here). Qed.
Print Assumptions C127_together.
(** So the bindings do not depend on the order: two of the libraries that export the same name give
    it the same binding *)
Theorem C127_same : forall l k xs ys n x y, In l session_imports -> In k session_imports ->
  lookup l all_libraries = Some xs -> lookup k all_libraries = Some ys -> In (n, x) xs -> In (n, y) ys -> x = y.
Proof.
  destruct C127_together as (e & _ & H). revert H. generalize all_libraries. intros ls H l k xs ys n x y L K X Y A B.
  destruct (H l L) as (xs' & X' & U). destruct (H k K) as (ys' & Y' & V). rewrite X in X'. injection X' as <-. rewrite Y in Y'. injection Y' as <-.
  specialize (U n x A). specialize (V n y B). rewrite U in V. injection V as <-. reflexivity.
Qed.
Print Assumptions C127_same.
(** None of the libraries assigns a binding of another one by defining a name that it imports *)
Theorem C127_separate : forall d, In d declared_more -> exists e, import_sets all_libraries (imports d) [] = Some e /\
  forall n, In n (definitions d) -> lookup n e = None.
Proof.
  assert (H : forallb (fun d => match import_sets all_libraries (imports d) [] with
      | Some e => forallb (fun n => match lookup n e with None => true | Some _ => false end) (definitions d) | None => false end) declared_more = true) by (vm_compute; reflexivity).
  rewrite forallb_forall in H. intros d D. specialize (H d D). revert H. generalize (import_sets all_libraries (imports d) []). intros [e|] H; [|discriminate].
  exists e. split; [reflexivity|]. rewrite forallb_forall in H. intros n N. specialize (H n N). destruct (lookup n e); [discriminate|reflexivity].
Qed.
Print Assumptions C127_separate.
(** The names that an import set picks out with only are exported by the library it names (R7RS 5.2
    has it as an error otherwise, which import_set does not find: the names are left out).  This is
    about all the declarations of library/.  In part: the whole statement is without the exception
    of error in (srfi 16), where it fails. *)
Fixpoint only_check (library : string) (ls : list (string * bindings)) (s : set) : bool :=
  match s with
  | Whole l => match lookup l ls with Some _ => true | None => false end
  | Only s ns => only_check library ls s && match import_set ls s with Some xs => forallb (fun n => ((library =? "srfi 16") && (n =? "error")) || has n (map fst xs)) ns | None => false end
  | Except s _ | Prefix s _ | Rename s _ => only_check library ls s
  end.
Lemma only_here : forallb (fun d => forallb (only_check (library_name d) all_libraries) (imports d)) (declared ++ declared_more)%list = true.
Proof. vm_compute. reflexivity. Qed.
Theorem C127_only_partial : forall d s ns, In d (declared ++ declared_more)%list -> In (Only s ns) (imports d) ->
  exists xs, import_set all_libraries s = Some xs /\ forall n, In n ns -> ~ (library_name d = "srfi 16" /\ n = "error") -> In n (map fst xs).
Proof.
  pose proof only_here as H. revert H. generalize all_libraries (declared ++ declared_more)%list. intros ls ds H d s ns D I0.
  rewrite forallb_forall in H. specialize (H d D). rewrite forallb_forall in H. specialize (H _ I0). cbn [only_check] in H.
  apply andb_true_iff in H. destruct H as [_ H]. destruct (import_set ls s) as [xs|]; [|discriminate]. exists xs. split; [reflexivity|].
  rewrite forallb_forall in H. intros n N X. specialize (H n N). apply orb_true_iff in H. destruct H as [H|H]; [|apply has_in; exact H].
  apply andb_true_iff in H. destruct H as [A B]. apply String.eqb_eq in A. apply String.eqb_eq in B. destruct X. split; assumption.
Qed.
Print Assumptions C127_only_partial.
(** srfi-16.ss:2 takes error from (scheme r5rs), which does not export it; the next line imports it
    from (srfi 23), so that it is bound all the same *)
Theorem C127_only_refuted : exists d ns xs, In d declared /\ library_name d = "srfi 16" /\ In (Only (Whole "scheme r5rs") ns) (imports d) /\ In "error" ns /\
  import_set all_libraries (Whole "scheme r5rs") = Some xs /\ ~ In "error" (map fst xs).
Proof.
  assert (H : existsb (fun d => (library_name d =? "srfi 16") && existsb (fun s => match s with Only (Whole l) ns => (l =? "scheme r5rs") && has "error" ns | _ => false end) (imports d)) declared &&
    match import_set all_libraries (Whole "scheme r5rs") with Some xs => negb (has "error" (map fst xs)) | None => false end = true) by (vm_compute; reflexivity).
  revert H. generalize declared (import_set all_libraries (Whole "scheme r5rs")). intros ds [xs|] H; [|rewrite andb_false_r in H; discriminate].
  apply andb_true_iff in H. destruct H as [H N]. apply existsb_exists in H. destruct H as (d & D & H). apply andb_true_iff in H. destruct H as [E H].
  apply existsb_exists in H. destruct H as (s & J & H). destruct s as [|s ns| | |]; try discriminate. destruct s as [l| | | |]; try discriminate.
  apply andb_true_iff in H. destruct H as [L H]. apply String.eqb_eq in L. apply String.eqb_eq in E. apply has_in in H. subst.
  exists d, ns, xs. repeat split; auto. intros K. apply has_in in K. rewrite K in N. discriminate.
Qed.
Print Assumptions C127_only_refuted.
(** map of (scheme list) is the map of (scheme base); fold is that of (srfi 1) *)
Example C127_ex : match import_each all_libraries session_imports [] with
  | Some e => (lookup "map" e, lookup "fold" e, lookup "fx+" e, lookup "no-such-name" e)
  | None => (None, None, None, None) end = (Some (Defined "meevax map" "map"), Some (Defined "srfi 1" "fold"), Some (Defined "srfi 143" "fx+"), None).
Proof. vm_compute. reflexivity. Qed.
