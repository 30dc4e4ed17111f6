(** Model of cond-expand: src/kernel/conditional_expand.cpp:24-77.

    The requirements are the data of Writer.v.  A symbol is its name, which stands
    for the object by C37.  The features are the symbols of the list features();
    other objects put there with the option -D are not modelled.  A library is
    found by the written form of its name (environment.cpp:37 and
    conditional_expand.cpp:33).  [Crash] is undefined behaviour: car or cdr of an
    object that is not a pair, or writing a string of std::isprint's undefined
    domain. *)
From Coq Require Import String ZArith List Bool Lia.
From Verif Require Import Number NumberProofs NumberText TextPort TextPortProofs Writer Reader ReaderProofs RoundTrip.
Import ListNotations.
Open Scope Z_scope.

Definition same_name (a b : list Z) : bool := if list_eq_dec Z.eq_dec a b then true else false.

Section CondExpand.
  (** How an inexact number is written *)
  Variable inexact_text : nat -> list Z.
  Variable features : list (list Z).       (* the names in features() *)
  Variable libraries : list (list Z).      (* the keys of libraries() *)

  (** conditional_expand_test, conditional_expand.cpp:27-56 *)
  Fixpoint test (requirement : datum) : outcome bool :=
    match requirement with
    | Pair (Sym name) rest =>
      if same_name name (codes "library") then
        match rest with
        | Pair x _ => match write inexact_text x with
                      | Some key => Ok (existsb (same_name key) libraries)
                      | None => Crash
                      end
        | _ => Crash
        end
      else if same_name name (codes "and") then
        (fix all_of (l : datum) : outcome bool :=
           match l with
           | Nil => Ok true
           | Pair a l => let! b := test a in if b : bool then all_of l else Ok false
           | _ => Crash
           end) rest
      else if same_name name (codes "or") then
        (fix any_of (l : datum) : outcome bool :=
           match l with
           | Nil => Ok false
           | Pair a l => let! b := test a in if b : bool then Ok true else any_of l
           | _ => Crash
           end) rest
      else if same_name name (codes "not") then
        match rest with
        | Pair x _ => let! b := test x in Ok (negb b)
        | _ => Crash
        end
      else Raise
    | Sym name => Ok (same_name name (codes "else") || existsb (same_name name) features)
    | _ => Ok false
    end.

  (** conditional_expand, conditional_expand.cpp:58-76 *)
  Fixpoint conditional_expand (clauses : datum) : outcome datum :=
    match clauses with
    | Nil => Raise
    | Pair clause rest =>
      match clause with
      | Pair requirement body => let! b := test requirement in if b : bool then Ok body else conditional_expand rest
      | _ => Raise
      end
    | _ => Crash
    end.
End CondExpand.

(** ** Specification: requirements and their meaning (R7RS 4.2.1) *)
Inductive requirement :=
| Feature (name : list Z)
| Library (name : datum)
| And (rs : list requirement)
| Or (rs : list requirement)
| Not (r : requirement)
| Else.
Fixpoint encode (r : requirement) : datum :=
  match r with
  | Feature name => Sym name
  | Library name => Pair (Sym (codes "library")) (Pair name Nil)
  | And rs => Pair (Sym (codes "and")) (list_of (map encode rs))
  | Or rs => Pair (Sym (codes "or")) (list_of (map encode rs))
  | Not r => Pair (Sym (codes "not")) (Pair (encode r) Nil)
  | Else => Sym (codes "else")
  end.
(** [provided] tells the features, [defined] the libraries *)
Fixpoint truth (provided : list Z -> Prop) (defined : datum -> Prop) (r : requirement) : Prop :=
  match r with
  | Feature name => provided name
  | Library name => defined name
  | And rs => (fix all l := match l with [] => True | r :: l => truth provided defined r /\ all l end) rs
  | Or rs => (fix any l := match l with [] => False | r :: l => truth provided defined r \/ any l end) rs
  | Not r => ~ truth provided defined r
  | Else => True
  end.
(** The libraries named and the features named *)
Fixpoint names (r : requirement) : list (list Z + datum) :=
  match r with
  | Feature name => [inl name]
  | Library name => [inr name]
  | And rs | Or rs => flat_map names rs
  | Not r => names r
  | Else => []
  end.

Lemma requirement_ind' (P : requirement -> Prop) :
  (forall n, P (Feature n)) -> (forall d, P (Library d)) -> (forall rs, Forall P rs -> P (And rs)) ->
  (forall rs, Forall P rs -> P (Or rs)) -> (forall r, P r -> P (Not r)) -> P Else -> forall r, P r.
Proof.
  intros H1 H2 H3 H4 H5 H6. fix F 1. intros [n|d|rs|rs|r|]; [apply H1|apply H2| | |apply H5; apply F|exact H6].
  - apply H3. induction rs as [|r rs IH]; constructor; [apply F|exact IH].
  - apply H4. induction rs as [|r rs IH]; constructor; [apply F|exact IH].
Qed.

(** ** Proofs *)
Lemma same_name_spec a b : reflect (a = b) (same_name a b).
Proof. unfold same_name. destruct (list_eq_dec Z.eq_dec a b); constructor; assumption. Qed.
Lemma in_names n l : existsb (same_name n) l = true <-> In n l.
Proof.
  rewrite existsb_exists. split.
  - intros (x & I & E). destruct (same_name_spec n x); [subst; exact I|discriminate].
  - intros I. exists n. split; [exact I|]. destruct (same_name_spec n n); congruence.
Qed.

(** Different names are written differently *)
Lemma written_differ iv it d e bytes : readable iv d -> readable iv e -> plain_data d -> plain_data e ->
  write it d = Some bytes -> write it e = Some bytes -> d = e.
Proof.
  intros Rd Re Pd Pe Wd We. destruct (written_reads iv it d Rd) as (b1 & W1 & K1). destruct (written_reads iv it e Re) as (b2 & W2 & K2).
  destruct (K1 [] ltac:(constructor) I) as (s1 & _ & n1 & Y1). destruct (K2 [] ltac:(constructor) I) as (s2 & _ & n2 & Y2).
  assert (b1 = bytes) by congruence. assert (b2 = bytes) by congruence. subst b1 b2.
  pose proof (Y1 (n1 + n2)%nat ltac:(lia)) as Z1. pose proof (Y2 (n1 + n2)%nat ltac:(lia)) as Z2. rewrite Z1 in Z2.
  rewrite (plain_same d Pd), (plain_same e Pe) in Z2. congruence.
Qed.
Lemma written_some iv it d : readable iv d -> exists bytes, write it d = Some bytes.
Proof. intros R. destruct (written_reads iv it d R) as (b & W & _). eauto. Qed.

Section Proofs.
  Variable inexact_value : list Z -> Z -> option nat.
  Variable inexact_text : nat -> list Z.
  Variable features : list (list Z).
  (** The libraries defined so far and their keys *)
  Variable defined : list datum.
  Variable keys : list (list Z).
  Hypothesis Keys : map (write inexact_text) defined = map Some keys.
  Definition name_ok (d : datum) : Prop := readable inexact_value d /\ plain_data d.
  Hypothesis Defined : Forall name_ok defined.

  Lemma key_in d key : name_ok d -> write inexact_text d = Some key -> (In key keys <-> In d defined).
  Proof.
    intros [R P] W. split; intros I.
    - assert (J : In (Some key) (map Some keys)) by (apply in_map; exact I). rewrite <- Keys in J.
      apply in_map_iff in J. destruct J as (e & We & Ie). pose proof Defined as D. rewrite Forall_forall in D. destruct (D e Ie) as [Re Pe].
      rewrite (written_differ inexact_value inexact_text d e key R Re P Pe W We). exact Ie.
    - assert (J : In (write inexact_text d) (map (write inexact_text) defined)) by (apply in_map; exact I). rewrite Keys, W in J.
      apply in_map_iff in J. destruct J as (k & E & Ik). injection E as <-. exact Ik.
  Qed.

  Notation test := (test inexact_text features keys).
  Notation truth := (truth (fun n => In n features) (fun d => In d defined)).

  Lemma test_truth r :
    (forall n, In (inl n) (names r) -> n <> codes "else") -> (forall d, In (inr d) (names r) -> name_ok d) ->
    exists b, test (encode r) = Ok b /\ (b = true <-> truth r).
  Proof.
    induction r as [n|d|rs IH|rs IH|r IH|] using requirement_ind'; intros F L; cbn [encode names] in *.
    - exists (existsb (same_name n) features). cbn [CondExpand.test].
      destruct (same_name_spec n (codes "else")) as [->|_]; [exfalso; exact (F _ (or_introl eq_refl) eq_refl)|].
      split; [reflexivity|]. cbn [CondExpand.truth]. apply in_names.
    - pose proof (L d (or_introl eq_refl)) as N. destruct (written_some inexact_value inexact_text d (proj1 N)) as (key & W).
      exists (existsb (same_name key) keys). split; [|cbn [CondExpand.truth]; rewrite in_names; apply key_in; assumption].
      change (test (Pair (Sym (codes "library")) (Pair d Nil))) with
        (match write inexact_text d with Some key => Ok (existsb (same_name key) keys) | None => Crash end). rewrite W. reflexivity.
    - set (go := fix all_of (l : datum) : outcome bool :=
           match l with
           | Nil => Ok true
           | Pair a l => let! b := test a in if b : bool then all_of l else Ok false
           | _ => Crash
           end). change (test (Pair (Sym (codes "and")) (list_of (map encode rs)))) with (go (list_of (map encode rs))).
      cbn [CondExpand.truth]. induction IH as [|r rs Hr Hrs IHrs]; [exists true; split; [reflexivity|tauto]|].
      cbn [flat_map] in F, L. destruct Hr as (b & E & B); [intros n I; apply F; apply in_or_app; auto|intros d I; apply L; apply in_or_app; auto|].
      destruct IHrs as (c & Ec & C); [intros n I; apply F; apply in_or_app; auto|intros d I; apply L; apply in_or_app; auto|].
      cbn [map list_of go]. rewrite E. cbn [Number.obind]. destruct b.
      + exists c. split; [exact Ec|tauto].
      + exists false. split; [reflexivity|]. split; [discriminate|]. intros [T _]. apply B in T. discriminate.
    - set (go := fix any_of (l : datum) : outcome bool :=
           match l with
           | Nil => Ok false
           | Pair a l => let! b := test a in if b : bool then Ok true else any_of l
           | _ => Crash
           end). change (test (Pair (Sym (codes "or")) (list_of (map encode rs)))) with (go (list_of (map encode rs))).
      cbn [CondExpand.truth]. induction IH as [|r rs Hr Hrs IHrs]; [exists false; split; [reflexivity|split; [discriminate|tauto]]|].
      cbn [flat_map] in F, L. destruct Hr as (b & E & B); [intros n I; apply F; apply in_or_app; auto|intros d I; apply L; apply in_or_app; auto|].
      destruct IHrs as (c & Ec & C); [intros n I; apply F; apply in_or_app; auto|intros d I; apply L; apply in_or_app; auto|].
      cbn [map list_of go]. rewrite E. cbn [Number.obind]. destruct b.
      + exists true. split; [reflexivity|tauto].
      + exists c. split; [exact Ec|]. rewrite C. split; [auto|]. intros [T|T]; [apply B in T; discriminate|exact T].
    - destruct (IH F L) as (b & E & B). exists (negb b). split.
      + change (test (Pair (Sym (codes "not")) (Pair (encode r) Nil))) with (let! b := test (encode r) in Ok (negb b)). rewrite E. reflexivity.
      + cbn [CondExpand.truth]. rewrite <- B. destruct b; cbn; intuition congruence.
    - exists true. split; [reflexivity|cbn; tauto].
  Qed.

  (** A clause list, and the first clause that holds *)
  Definition clause_list (cs : list (requirement * datum)) : datum :=
    list_of (map (fun '(r, body) => Pair (encode r) body) cs).
  Definition clauses_ok (cs : list (requirement * datum)) : Prop :=
    forall r body, In (r, body) cs ->
      (forall n, In (inl n) (names r) -> n <> codes "else") /\ (forall d, In (inr d) (names r) -> name_ok d).
  Lemma expand_first cs : clauses_ok cs ->
    (exists before r body after, cs = before ++ (r, body) :: after /\ truth r /\
       (forall r' b', In (r', b') before -> ~ truth r') /\
       conditional_expand inexact_text features keys (clause_list cs) = Ok body) \/
    ((forall r b, In (r, b) cs -> ~ truth r) /\ conditional_expand inexact_text features keys (clause_list cs) = Raise).
  Proof.
    induction cs as [|[r body] cs IH]; intros O; [right; split; [intros ? ? []|reflexivity]|].
    destruct (O r body (or_introl eq_refl)) as [F L]. destruct (test_truth r F L) as (b & E & B).
    unfold clause_list. cbn [map list_of conditional_expand]. fold (clause_list cs). rewrite E. cbn [Number.obind]. destruct b.
    - left. exists [], r, body, cs. split; [reflexivity|]. split; [apply B; reflexivity|]. split; [intros ? ? []|reflexivity].
    - assert (N : ~ truth r) by (intros T; apply B in T; discriminate).
      destruct IH as [(before & r0 & b0 & after & -> & T & Nb & X)|[Nb X]]; [intros r' b' I; apply (O r' b'); right; exact I| |].
      + left. exists ((r, body) :: before), r0, b0, after. split; [reflexivity|]. split; [exact T|]. split; [|exact X].
        intros r' b' [I|I]; [injection I as <- <-; exact N|exact (Nb r' b' I)].
      + right. split; [|exact X]. intros r' b' [I|I]; [injection I as <- <-; exact N|exact (Nb r' b' I)].
  Qed.
End Proofs.
