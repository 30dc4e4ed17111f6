(** C126: the two procedures of (scheme process-context) that read the environment. *)
From Coq Require Import List Bool Arith Lia.
From Verif Require Import EnvVars.
Import ListNotations.

(** Specification.  The entry that gives the variable [n] the value [v]; the value an association
    list gives to a name (assoc of R7RS 6.4 with equal?). *)
Definition entry_of (n v : list nat) : list nat := n ++ 61 :: v.
Fixpoint assoc_spec (name : list nat) (alist : list (list nat * list nat)) : option (list nat) :=
  match alist with
  | [] => None
  | (n, v) :: alist => if list_eq_dec Nat.eq_dec name n then Some v else assoc_spec name alist
  end.

Lemma split_some : forall e n v, split_entry e = Some (n, v) <-> e = entry_of n v /\ ~ In 61 n.
Proof.
  intros e n v. unfold entry_of. split.
  - revert n v. induction e as [|b e IH]; intros n v H; simpl in H; [discriminate|].
    destruct (Nat.eqb_spec b 61) as [->|N].
    + inversion H; subst. simpl. auto.
    + destruct (split_entry e) as [[n' v']|] eqn:Q; [|discriminate]. inversion H; subst.
      destruct (IH _ _ eq_refl) as [-> K]. simpl. split; auto. intros [?|?]; auto.
  - intros [-> K]. induction n as [|c n IH]; simpl; auto.
    destruct (Nat.eqb_spec c 61) as [->|N]; [exfalso; apply K; left; auto|].
    rewrite IH; auto. intros J. apply K. right. auto.
Qed.

Lemma loop_in : forall env a p, In p (variables_loop env a) <->
  In p a \/ exists e, In e env /\ split_entry e = Some p.
Proof.
  induction env as [|e env IH]; intros a p; simpl.
  - split; [auto | intros [J|(e & J & _)]; [exact J | destruct J]].
  - destruct (split_entry e) as [nv|] eqn:Q; rewrite IH; simpl; split.
    + intros [[->|?]|(e' & ? & ?)]; eauto.
    + intros [?|(e' & [->|?] & ?)]; eauto. left. left. congruence.
    + intros [?|(e' & ? & ?)]; eauto.
    + intros [?|(e' & [->|?] & ?)]; eauto. congruence.
Qed.

Lemma after_some : forall n e v, after_name n e = Some v <-> e = entry_of n v.
Proof.
  unfold entry_of. induction n as [|x n IH]; intros [|y e] v; simpl; try (split; [discriminate | intros H; discriminate H]).
  - destruct (Nat.eqb_spec y 61) as [->|N]; split; intros H; inversion H; subst; auto; congruence.
  - destruct (Nat.eqb_spec x y) as [->|N].
    + rewrite IH. split; intros H; [subst; auto | inversion H; auto].
    + split; intros H; [discriminate | inversion H; congruence].
Qed.

Lemma search_some : forall env n v, search env n = Some v ->
  exists e1 e2, env = e1 ++ entry_of n v :: e2 /\ forall w, ~ In (entry_of n w) e1.
Proof.
  induction env as [|e env IH]; intros n v H; simpl in H; [discriminate|].
  destruct (after_name n e) as [w|] eqn:Q.
  - injection H as <-. apply after_some in Q. subst. exists [], env. simpl. auto.
  - destruct (IH _ _ H) as (e1 & e2 & -> & K). exists (e :: e1), e2. split; auto.
    intros w [->|J]; [|exact (K w J)].
    assert (T : after_name n (entry_of n w) = Some w) by (apply after_some; auto). congruence.
Qed.
Lemma search_none : forall env n w, search env n = None -> ~ In (entry_of n w) env.
Proof.
  induction env as [|e env IH]; intros n w H; simpl in *; auto.
  destruct (after_name n e) as [u|] eqn:Q; [discriminate|].
  intros [->|J]; [|exact (IH _ _ H J)].
  assert (T : after_name n (entry_of n w) = Some w) by (apply after_some; auto). congruence.
Qed.
Lemma search_at : forall e1 e2 n v, (forall w, ~ In (entry_of n w) e1) ->
  search (e1 ++ entry_of n v :: e2) n = Some v.
Proof.
  induction e1 as [|e e1 IH]; intros e2 n v H; simpl.
  - replace (after_name n (entry_of n v)) with (Some v); auto. symmetry. apply after_some. auto.
  - destruct (after_name n e) as [w|] eqn:Q.
    + apply after_some in Q. exfalso. apply (H w). left. auto.
    + apply IH. intros w J. apply (H w). right. auto.
Qed.

Lemma c_str_id : forall n, ~ In 0 n -> c_str n = n.
Proof.
  induction n as [|b n IH]; intros H; simpl; auto.
  destruct (Nat.eqb_spec b 0) as [->|N]; [exfalso; apply H; left; auto|].
  rewrite IH; auto. intros J. apply H. right. auto.
Qed.
Lemma c_str_cut : forall n m, ~ In 0 n -> c_str (n ++ 0 :: m) = n.
Proof.
  induction n as [|b n IH]; intros m H; simpl; auto.
  destruct (Nat.eqb_spec b 0) as [->|N]; [exfalso; apply H; left; auto|].
  rewrite IH; auto. intros J. apply H. right. auto.
Qed.

Lemma assoc_some : forall l n v, assoc_spec n l = Some v -> In (n, v) l.
Proof.
  induction l as [|[a b] l IH]; simpl; intros n v H; [discriminate|].
  destruct (list_eq_dec Nat.eq_dec n a) as [->|N]; [injection H as ->; auto | auto].
Qed.
Lemma assoc_none : forall l n v, assoc_spec n l = None -> ~ In (n, v) l.
Proof.
  induction l as [|[a b] l IH]; simpl; intros n v H; auto.
  destruct (list_eq_dec Nat.eq_dec n a) as [->|N]; [discriminate|].
  intros [J|J]; [congruence | exact (IH _ _ H J)].
Qed.

(** get-environment-variables lists the entries of the environment, cut at their first equals sign:
    nothing is left out and nothing added. *)
Theorem C126_variables : forall environ n v,
  In (n, v) (get_environment_variables environ) <-> In (n ++ 61 :: v) environ /\ ~ In 61 n.
Proof.
  intros. unfold get_environment_variables. rewrite loop_in. split.
  - intros [[]|(e & J & H)]. apply split_some in H. destruct H as [-> K]. auto.
  - intros [J K]. right. exists (n ++ 61 :: v). split; auto. apply split_some. auto.
Qed.

(** get-environment-variable of a name that is not empty and contains no zero byte is the value of
    the first entry for the name, and #f without one. *)
Theorem C126_variable : forall environ n, n <> [] -> ~ In 0 n ->
  (forall v, get_environment_variable environ n = Some v <->
     exists before after, environ = before ++ (n ++ 61 :: v) :: after /\ forall w, ~ In (n ++ 61 :: w) before)
  /\ (get_environment_variable environ n = None <-> forall v, ~ In (n ++ 61 :: v) environ).
Proof.
  intros env n N Z.
  assert (G : get_environment_variable env n = search env n).
  { unfold get_environment_variable. rewrite c_str_id by auto. destruct n; auto. congruence. }
  rewrite G. split.
  - intros v. split; [apply search_some|]. intros (e1 & e2 & -> & K). apply search_at. auto.
  - split.
    + intros H v. apply search_none. auto.
    + intros H. destruct (search env n) as [v|] eqn:Q; auto.
      destruct (search_some _ _ _ Q) as (e1 & e2 & -> & _). exfalso. apply (H v).
      apply in_or_app. right. left. auto.
Qed.

(** The two procedures agree on every name that can name a variable, when the environment gives no
    name two values. *)
Theorem C126_agree : forall environ n, n <> [] -> ~ In 0 n -> ~ In 61 n ->
  (forall v w, In (n ++ 61 :: v) environ -> In (n ++ 61 :: w) environ -> v = w) ->
  get_environment_variable environ n = assoc_spec n (get_environment_variables environ).
Proof.
  intros env n N Z E U. destruct (C126_variable env n N Z) as [A B].
  destruct (assoc_spec n (get_environment_variables env)) as [v|] eqn:Q.
  - apply assoc_some in Q. apply C126_variables in Q. destruct Q as [J _].
    destruct (get_environment_variable env n) as [w|] eqn:R.
    + destruct (proj1 (A w) eq_refl) as (e1 & e2 & H & _). f_equal. apply U; auto.
      rewrite H. apply in_or_app. right. left. auto.
    + exfalso. exact (proj1 B eq_refl v J).
  - apply B. intros v J. apply (assoc_none _ _ v Q). apply C126_variables. auto.
Qed.

(** With two entries for one name, which execve(2) lets through, they do not agree: the one takes the
    first entry, the list begins with the last. *)
Theorem C126_agree_refuted : forall n v w environ, n <> [] -> ~ In 0 n -> ~ In 61 n -> v <> w ->
  get_environment_variable ((n ++ 61 :: v) :: environ ++ [n ++ 61 :: w]) n = Some v
  /\ assoc_spec n (get_environment_variables ((n ++ 61 :: v) :: environ ++ [n ++ 61 :: w])) = Some w
  /\ v <> w.
Proof.
  intros n v w env N Z E D. split; [|split; auto].
  - apply (C126_variable _ n N Z). exists [], (env ++ [n ++ 61 :: w]). auto.
  - assert (L : forall es a, variables_loop (es ++ [n ++ 61 :: w]) a = (n, w) :: variables_loop es a).
    { induction es as [|e es IH]; intros a; simpl.
      - replace (split_entry (n ++ 61 :: w)) with (Some (n, w)); auto. symmetry. apply split_some. auto.
      - destruct (split_entry e); apply IH. }
    unfold get_environment_variables. rewrite app_comm_cons, L. simpl.
    destruct (list_eq_dec Nat.eq_dec n n); congruence.
Qed.

(** A name with a zero byte is none that an environment can hold, but the part before the byte is
    looked up, so that a value is returned for a name that is not in the list. *)
Theorem C126_zero_byte_refuted : forall environ n m, ~ In 0 n ->
  get_environment_variable environ (n ++ 0 :: m) = get_environment_variable environ n
  /\ ((forall e, In e environ -> ~ In 0 e) -> forall v, ~ In (n ++ 0 :: m, v) (get_environment_variables environ)).
Proof.
  intros env n m Z. split.
  - unfold get_environment_variable. rewrite c_str_cut, c_str_id by auto. auto.
  - intros H v J. apply C126_variables in J. destruct J as [J _]. apply (H _ J).
    apply in_or_app. left. apply in_or_app. right. left. auto.
Qed.

(** The name may also contain an equals sign: an entry A=B=C is the value C for A=B, although the
    list has it as the value B=C of A.  (For such names POSIX leaves getenv unspecified.) *)
Theorem C126_equals_refuted : forall environ n m v, ~ In 0 n -> ~ In 0 m ->
  get_environment_variable ((n ++ 61 :: m ++ 61 :: v) :: environ) (n ++ 61 :: m) = Some v
  /\ forall w, ~ In (n ++ 61 :: m, w) (get_environment_variables ((n ++ 61 :: m ++ 61 :: v) :: environ)).
Proof.
  intros env n m v Z Y. split.
  - apply C126_variable.
    + destruct n; discriminate.
    + intros J. apply in_app_or in J. destruct J as [J|[J|J]]; auto. discriminate.
    + exists [], env. split; auto. simpl. rewrite <- app_assoc. simpl. auto.
  - intros w J. apply C126_variables in J. destruct J as [_ J]. apply J.
    apply in_or_app. right. left. auto.
Qed.

(** HOME=/r and A=1 and A=2: bytes 72 79 77 69, 65. *)
Example C126_ex :
  let e := [[72;79;77;69;61;47;114]; [65;61;49]; [65;61;50]; [66]] in
  get_environment_variable e [72;79;77;69] = Some [47;114]
  /\ get_environment_variable e [66] = None
  /\ get_environment_variable e [65] = Some [49]
  /\ get_environment_variables e = [([65], [50]); ([65], [49]); ([72;79;77;69], [47;114])]
  /\ assoc_spec [65] (get_environment_variables e) = Some [50]
  /\ get_environment_variable e [65;0;66] = Some [49].
Proof. vm_compute. repeat split. Qed.

Print Assumptions C126_variables.
Print Assumptions C126_variable.
Print Assumptions C126_agree.
Print Assumptions C126_agree_refuted.
Print Assumptions C126_zero_byte_refuted.
Print Assumptions C126_equals_refuted.
