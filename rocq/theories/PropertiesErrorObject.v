(** C119: error objects keep their message and irritants and say which kind of error they are; the irritants are a list; an error nobody handles
    is reported with its message and irritants (R7RS 6.11, SRFI 23). *)
From Coq Require Import String List Bool Lia.
From Verif Require Import ErrorObject.
Import ListNotations.
Local Open Scope string_scope.

(** a list *)
Inductive is_list : value -> Prop := list_null : is_list Null | list_pair a d : is_list d -> is_list (Pair a d).
(** the list of the values xs *)
Inductive holds : value -> list value -> Prop := holds_none : holds Null [] | holds_more a d xs : holds d xs -> holds (Pair a d) (a :: xs).
(** s has t in it *)
Definition within (t s : string) : Prop := exists a b, s = a ++ t ++ b.

Lemma list_value_holds : forall xs, holds (list_value xs) xs.
Proof. induction xs; cbn; constructor; assumption. Qed.
Lemma holds_list : forall v xs, holds v xs -> is_list v.
Proof. intros v xs H. induction H; constructor; assumption. Qed.
Lemma append_empty : forall s, s ++ "" = s.
Proof. induction s as [|c s IH]; cbn; [reflexivity|]. rewrite IH. reflexivity. Qed.

(** The object of (error message irritant ...) *)
Theorem C119_error : forall m is, exists x, error_object (m :: is) = Some x /\ error_objectp x = true /\ read_errorp x = false /\ file_errorp x = false /\
  pairp x = false /\ message_of x = Some m /\ exists v, irritants_of x = Some v /\ holds v is.
Proof. intros m is. eexists. split; [reflexivity|]. do 5 (split; [reflexivity|]). eexists. split; [reflexivity|apply list_value_holds]. Qed.
(** What the implementation signals reaches the handler as an error object of its kind with its message and irritants *)
Theorem C119_handler : forall k m i, exists x, catch (Raised k m i) = Handler x /\ error_objectp x = true /\ (read_errorp x = true <-> k = Read) /\ (file_errorp x = true <-> k = File) /\
  message_of x = Some m /\ irritants_of x = Some i.
Proof.
  intros k m i. exists (Error k m i). split; [reflexivity|]. split; [reflexivity|]. split; [|split; [|split; reflexivity]]; (split; [destruct k; [discriminate|discriminate || reflexivity..]|intros ->; reflexivity]).
Qed.
Theorem C119_handler_system : forall s, exists x, catch (System s) = Handler x /\ error_objectp x = true /\ read_errorp x = false /\ file_errorp x = false /\
  message_of x = Some (Text s) /\ irritants_of x = Some Null.
Proof. intros s. eexists. split; [reflexivity|]. repeat split. Qed.
(** An object that is raised and not handled leaves as it is, if it is an error object; any other one is the irritant of a new error *)
Theorem C119_uncaught : forall x, match x with
  | Error k m i => catch (Thrown x) = Leaves (Raised k m i)
  | _ => exists m, catch (Thrown x) = Leaves (Raised Plain (Text m) x)
  end.
Proof. intros []; cbn; eauto. Qed.
(** The errors about the number of arguments have a list of irritants *)
Theorem C119_irritants_partial : forall name xs, exists x v, catch (signalled (Arguments name xs)) = Handler x /\ irritants_of x = Some v /\ holds v xs.
Proof. intros. do 2 eexists. split; [reflexivity|]. split; [reflexivity|apply list_value_holds]. Qed.
(** Not those of: a call of something else than a procedure, and of a file that cannot be deleted, among others *)
Theorem C119_irritants_refuted : ~ (forall p x v, catch (signalled p) = Handler x -> irritants_of x = Some v -> is_list v).
Proof. intros H. specialize (H (Not_applicable (Immediate 1)) _ _ eq_refl eq_refl). inversion H. Qed.
Theorem C119_irritants_places : forall p x v, catch (signalled p) = Handler x -> irritants_of x = Some v ->
  match p with Arguments _ _ => is_list v | Delete_file _ | Open_file _ | Label _ => ~ is_list v
             | Not_applicable y | Not_exact_integer y | Unknown_discriminator y => v = y end.
Proof.
  intros p x v E I. destruct p; cbn in E; injection E as <-; cbn in I; injection I as <-; try reflexivity; try (intros H; inversion H).
  eapply holds_list. apply list_value_holds.
Qed.

(** The report of an error whose message is a string and whose irritants are none or on the heap *)
Theorem C119_report_partial : forall shown k s i, (forall n, i <> Immediate n) -> forall e, catch (Thrown (Error k (Text s) i)) = Leaves e ->
  exists m' i' t, e = Raised k m' i' /\ what shown m' i' = Says t /\ (i = Null -> t = s) /\ (i <> Null -> t = s ++ ": " ++ shown i).
Proof.
  intros shown k s i N e E. cbn in E. injection E as <-. do 3 eexists. split; [reflexivity|]. cbn [what]. split; [reflexivity|].
  destruct i; cbn [truthy]; (split; [intros Hi|intros Hi]); try reflexivity; try discriminate; try contradiction. exfalso. eapply N. reflexivity.
Qed.
(** in particular of what error makes *)
Theorem C119_report_error : forall shown s is, exists t e, error_uncaught (Text s :: is) = Some (Leaves (Raised Plain (Text s) e)) /\ holds e is /\ what shown (Text s) e = Says t /\
  (is = [] -> t = s) /\ (is <> [] -> t = s ++ ": " ++ shown e).
Proof. intros shown s is. do 2 eexists. split; [reflexivity|]. split; [apply list_value_holds|]. split; [reflexivity|]. destruct is; (split; intros H; [reflexivity || discriminate|reflexivity || contradiction]). Qed.
(** A fixnum, a boolean, a character or a flonum that is raised and not handled is not in the report, *)
Theorem C119_report_refuted : ~ (forall shown x e m i t, catch (Thrown x) = Leaves e -> e = Raised Plain m i -> what shown m i = Says t -> within (shown x) t).
Proof.
  intros H. specialize (H (fun _ => "42") (Immediate 42) _ _ _ _ eq_refl eq_refl eq_refl). destruct H as (a & b & H).
  assert (G : forall s a b, s = a ++ "42" ++ b -> exists n, get n s = Some (Ascii.ascii_of_nat 52)).
  { intros s a0. revert s. induction a0 as [|c a0 IH]; intros s b0 E; subst s; [exists 0; reflexivity|]. destruct (IH _ b0 eq_refl) as (n & E). exists (S n). exact E. }
  destruct (G _ _ _ H) as (n & E). do 19 (destruct n as [|n]; [discriminate E|]). discriminate E.
Qed.
(** nor is what was called instead of a procedure, if it is one of these *)
Theorem C119_report_not_applicable_refuted : forall shown n, exists t, what shown (Text "not applicable") (Immediate n) = Says t /\ t = "not applicable".
Proof. intros. eexists. split; reflexivity. Qed.
(** An error whose message is not a string has no report: the process ends *)
Theorem C119_report_exits : forall shown m i, what shown m i = Exits <-> (forall s, m <> Text s).
Proof. intros shown m i. split; [intros E s ->; discriminate|]. destruct m; cbn; intros H; try reflexivity. exfalso. eapply H. reflexivity. Qed.
(** Written with write, the object shows message and irritants, also these *)
Theorem C119_written : forall shown m i, within (shown m) (written shown m i) /\ (i <> Null -> within (shown i) (written shown m i)).
Proof.
  intros shown m i. assert (A : forall a b c : string, (a ++ b) ++ c = a ++ b ++ c) by (induction a as [|x a IH]; intros; cbn; [reflexivity|rewrite IH; reflexivity]).
  split.
  - exists "#,(error ". eexists. reflexivity.
  - intros N. unfold written. exists ("#,(error " ++ shown m ++ " "), ")". destruct i; [contradiction|..]; rewrite !A; cbn; rewrite ?A; reflexivity.
Qed.

(** error-object?, read-error? and file-error? hold of error objects only, and no error object is a pair *)
Theorem C119_kinds : forall x, (error_objectp x = true <-> exists k m i, x = Error k m i) /\ (read_errorp x = true <-> exists m i, x = Error Read m i) /\
  (file_errorp x = true <-> exists m i, x = Error File m i) /\ (error_objectp x = true -> pairp x = false).
Proof.
  intros x. split; [|split; [|split]].
  - split; [destruct x; try discriminate; eauto|intros (k & m & i & ->); reflexivity].
  - split; [destruct x as [| | | |[]|]; try discriminate; eauto|intros (m & i & ->); reflexivity].
  - split; [destruct x as [| | | |[]|]; try discriminate; eauto|intros (m & i & ->); reflexivity].
  - destruct x; try discriminate; reflexivity.
Qed.
(** What the handler is told: a file error about files, a read error about texts that cannot be read, and no other place has one of these *)
Theorem C119_places : forall p, exists x, catch (signalled p) = Handler x /\ error_objectp x = true /\
  (file_errorp x = true <-> match p with Delete_file _ | Open_file _ => True | _ => False end) /\
  (read_errorp x = true <-> match p with Unknown_discriminator _ | Label _ => True | _ => False end).
Proof. intros []; eexists; (split; [reflexivity|]; split; [reflexivity|]; split; cbn; split; intros H; reflexivity || discriminate || exact Logic.I || contradiction). Qed.
Example C119_ex_error : error_object [Text "bad"; Immediate 1] = Some (Error Plain (Text "bad") (Pair (Immediate 1) Null)).
Proof. reflexivity. Qed.
Example C119_ex_report : what (fun _ => "(1)") (Text "bad") (Pair (Immediate 1) Null) = Says "bad: (1)".
Proof. reflexivity. Qed.
Example C119_ex_file : exists x, catch (signalled (Delete_file "x")) = Handler x /\ file_errorp x = true.
Proof. eexists. split; reflexivity. Qed.

Print Assumptions C119_kinds.
Print Assumptions C119_places.
Print Assumptions C119_error.
Print Assumptions C119_handler.
Print Assumptions C119_handler_system.
Print Assumptions C119_uncaught.
Print Assumptions C119_irritants_partial.
Print Assumptions C119_irritants_refuted.
Print Assumptions C119_irritants_places.
Print Assumptions C119_report_partial.
Print Assumptions C119_report_error.
Print Assumptions C119_report_refuted.
Print Assumptions C119_report_not_applicable_refuted.
Print Assumptions C119_report_exits.
Print Assumptions C119_written.
