(** Property theorems about records (C44): library/srfi-9.ss. *)
From Coq Require Import ZArith List Bool Arith Lia.
From Verif Require Import Records.
Import ListNotations.

(** ** Specification: types, instances with a value for every field tag, and vectors *)
Inductive item := SType (tags : list nat) | SInst (type : nat) (field : nat -> value) | SVector (vs : list value).
Definition world := list item.
Definition assign (f : nat -> value) (tag : nat) (y : value) : nat -> value := fun t => if t =? tag then y else f t.
Fixpoint assign_all (f : nat -> value) (tags : list nat) (ys : list value) : nat -> value :=
  match tags, ys with
  | t :: tags, y :: ys => assign_all (assign f t y) tags ys
  | _, _ => f
  end.
Definition is_field (tags : list nat) (t : nat) : bool := existsb (Nat.eqb t) tags.
Definition item_at (W : world) (x : value) : option item := match x with Ref n => nth_error W n | _ => None end.
Definition fields_of (W : world) (type : value) : list nat := match item_at W type with Some (SType tags) => tags | _ => [] end.
(** x is an instance of the type *)
Definition instance (W : world) (type x : value) : option (nat * nat * (nat -> value)) :=
  match type, x with
  | Ref t, Ref n => match nth_error W n with Some (SInst u f) => if u =? t then Some (n, u, f) else None | _ => None end
  | _, _ => None
  end.
Definition does (W : world) (o : op) : world * answer :=
  match o with
  | ODefine _ tags => (W ++ [SType tags], Val (Ref (length W)))
  | OConstruct (Ref t) tags args =>
    if forallb (is_field (fields_of W (Ref t))) tags && (length args =? length tags)
    then (W ++ [SInst t (assign_all (fun _ => Unspecified) tags args)], Val (Ref (length W)))
    else (W, Error)
  | OModify type tag x y =>
    match instance W type x with
    | Some (n, t, f) => if is_field (fields_of W type) tag then (replace W n (SInst t (assign f tag y)), Done) else (W, Error)
    | None => (W, Error)
    end
  | OAccess type tag x =>
    match instance W type x with
    | Some (_, _, f) => (W, if is_field (fields_of W type) tag then Val (f tag) else Error)
    | None => (W, Error)
    end
  | OPredicate type x => (W, Bool (match instance W type x with Some _ => true | None => false end))
  | OVector vs => (W ++ [SVector vs], Val (Ref (length W)))
  | OVectorSet x i y =>
    match x, item_at W x with
    | Ref n, Some (SVector vs) => if i <? length vs then (replace W n (SVector (replace vs i y)), Done) else (W, Error)
    | _, _ => (W, Error)
    end
  | OVectorRef x i =>
    (W, match item_at W x with Some (SVector vs) => match nth_error vs i with Some v => Val v | None => Error end | _ => Error end)
  | OIsVector x => (W, Bool (match item_at W x with Some (SVector _) => true | _ => false end))
  | _ => (W, Error)
  end.
Fixpoint does_all (W : world) (os : list op) : world * list answer :=
  match os with
  | [] => (W, [])
  | o :: os => let '(W, r) := does W o in let '(W, rs) := does_all W os in (W, r :: rs)
  end.
(** What the theorems ask of a program: constructors, accessors, modifiers and predicates belong
    to types that define-record-type made; the procedures for vectors are not used on
    records, and the marker, which the library keeps for itself, is nowhere else *)
Definition a_type (W : world) (x : value) : Prop := exists t tags, x = Ref t /\ t <> 0 /\ nth_error W t = Some (SType tags).
Definition no_record (W : world) (x : value) : Prop := match item_at W x with Some (SType _ | SInst _ _) => False | _ => True end.
Definition fair (W : world) (o : op) : Prop :=
  match o with
  | ODefine _ _ => True
  | OConstruct type _ args => a_type W type
  | OModify type _ _ _ | OAccess type _ _ | OPredicate type _ => a_type W type
  | OVector vs => nth_error vs 0 <> Some Marker
  | OVectorSet x _ y => no_record W x /\ y <> Marker
  | OVectorRef x _ | OIsVector x => no_record W x
  end.
Fixpoint fair_all (W : world) (os : list op) : Prop :=
  match os with
  | [] => True
  | o :: os => fair W o /\ fair_all (fst (does W o)) os
  end.
Definition first_world : world := [SType [1; 2]].

(** ** The vectors of the model hold what the specification says *)
Definition stands (W : world) (h : store) (n : nat) (i : item) : Prop :=
  match i with
  | SType tags => exists name, nth_error h n = Some [Marker; Ref 0; Sym name; Tags tags]
  | SInst t f => t <> 0 /\ exists tags vs, nth_error W t = Some (SType tags) /\ nth_error h n = Some (Marker :: Ref t :: vs) /\ length vs = length tags /\
      forall tag i, index_loop tag 0 tags = Some i -> nth_error vs i = Some (f tag)
  | SVector vs => nth_error h n = Some vs /\ nth_error vs 0 <> Some Marker
  end.
Definition agrees (W : world) (h : store) : Prop := length W = length h /\ forall n i, nth_error W n = Some i -> stands W h n i.

Lemma replace_len {A} (l : list A) i x : length (replace l i x) = length l.
Proof. revert i. induction l as [|y l IH]; intros [|i]; cbn; auto. Qed.
Lemma replace_eq {A} (l : list A) i x : i < length l -> nth_error (replace l i x) i = Some x.
Proof. revert i. induction l as [|y l IH]; intros [|i] H; cbn in *; try lia; [reflexivity|apply IH; lia]. Qed.
Lemma replace_ne {A} (l : list A) i j x : i <> j -> nth_error (replace l i x) j = nth_error l j.
Proof. revert i j. induction l as [|y l IH]; intros [|i] [|j] N; cbn; try reflexivity; try lia. apply IH. lia. Qed.
Lemma replace_last {A} (l : list A) x y : replace (l ++ [x]) (length l) y = l ++ [y].
Proof. induction l as [|z l IH]; cbn; [reflexivity|]. f_equal. exact IH. Qed.
Lemma nth_last {A} (l : list A) x : nth_error (l ++ [x]) (length l) = Some x.
Proof. rewrite nth_error_app2, Nat.sub_diag by lia. reflexivity. Qed.
Lemma nth_len {A} (l : list A) n x : nth_error l n = Some x -> n < length l.
Proof. intros H. apply nth_error_Some. congruence. Qed.
Lemma nth_old {A} (l : list A) n x y : nth_error l n = Some x -> nth_error (l ++ [y]) n = Some x.
Proof. intros H. rewrite nth_error_app1; [exact H|eapply nth_len, H]. Qed.

Lemma set_last h vs i y : i + 1 < length vs -> record_set (h ++ [vs]) (Ref (length h)) i y = Some (h ++ [replace vs (i + 1) y]).
Proof. intros H. unfold record_set, vector_set. rewrite nth_last. apply Nat.ltb_lt in H. rewrite H, replace_last. reflexivity. Qed.
Lemma make_last h k : make_record h k = Some (h ++ [Marker :: repeat Unspecified k], Ref (length h)).
Proof. unfold make_record, make_vector, vector_set. rewrite nth_last, Nat.add_1_r. cbn [repeat length Nat.ltb Nat.leb replace]. rewrite replace_last. reflexivity. Qed.
Lemma index_shift tag tags : forall i j, index_loop tag (i + j) tags = match index_loop tag j tags with Some k => Some (i + k) | None => None end.
Proof. induction tags as [|t tags IH]; intros i j; cbn [index_loop]; [reflexivity|]. destruct (tag =? t); [reflexivity|]. rewrite <- Nat.add_assoc. apply IH. Qed.
Lemma index_at tag tags : forall i, index_loop tag 0 tags = Some i -> nth_error tags i = Some tag.
Proof.
  induction tags as [|t tags IH]; intros i H; cbn [index_loop] in H; [discriminate H|]. destruct (Nat.eqb_spec tag t) as [->|N]; [injection H as <-; reflexivity|].
  change (0 + 1) with (1 + 0) in H. rewrite index_shift in H. destruct (index_loop tag 0 tags) as [k|]; [|discriminate H]. injection H as <-. cbn. apply IH. reflexivity.
Qed.
Lemma index_field tag tags : is_field tags tag = match index_loop tag 0 tags with Some _ => true | None => false end.
Proof.
  induction tags as [|t tags IH]; cbn [is_field existsb index_loop]; [reflexivity|]. destruct (tag =? t); [reflexivity|]. cbn [orb].
  change (0 + 1) with (1 + 0). rewrite index_shift. unfold is_field in IH. rewrite IH. destruct (index_loop tag 0 tags); reflexivity.
Qed.
Lemma tags_of W h t tags : agrees W h -> nth_error W t = Some (SType tags) -> record_type_field_tags h (Ref t) = Some tags.
Proof. intros (_ & A) H. destruct (A _ _ H) as (name & E). unfold record_type_field_tags, record_ref, vector_ref. rewrite E. reflexivity. Qed.
Lemma index_of_field W h t tags tag : agrees W h -> nth_error W t = Some (SType tags) ->
  field_index h (Ref t) tag = match index_loop tag 0 tags with Some i => Some (1 + i) | None => None end.
Proof. intros A H. unfold field_index. rewrite (tags_of _ _ _ _ A H). cbn [bind]. change 1 with (1 + 0) at 1. apply index_shift. Qed.
Lemma predicate_agrees W h t x : agrees W h -> t <> 0 -> predicate h (Ref t) x = match instance W (Ref t) x with Some _ => true | None => false end.
Proof.
  intros (L & A) N. unfold predicate, instance. destruct x as [| | |n| |]; try reflexivity. cbn [is_record].
  destruct (nth_error W n) as [i|] eqn:E.
  - specialize (A _ _ E). destruct i as [tags|u f|vs]; cbn [stands] in A.
    + destruct A as (name & H). unfold record_type, record_ref, vector_ref. rewrite H. cbn. destruct t; [contradiction|reflexivity].
    + destruct A as (_ & tags & vs & _ & H & _). rewrite H. cbn [length Nat.ltb Nat.leb nth_error value_eqb andb]. unfold record_type, record_ref, vector_ref. rewrite H. cbn [Nat.add nth_error value_eqb].
      destruct (u =? t); reflexivity.
    + destruct A as (H & Hd). rewrite H. destruct vs as [|v vs]; [reflexivity|]. cbn in Hd |- *. destruct v; try reflexivity. congruence.
  - assert (nth_error h n = None) as -> by (apply nth_error_None in E; apply nth_error_None; lia). reflexivity.
Qed.
Lemma stands_old W h n i j vs : stands W h n i -> stands (W ++ [j]) (h ++ [vs]) n i.
Proof.
  destruct i as [tags|t f|ws]; cbn [stands].
  - intros (name & H). exists name. apply nth_old, H.
  - intros (N & tags & us & H & H1 & H2 & H3). split; [exact N|]. exists tags, us. split; [apply nth_old, H|]. split; [apply nth_old, H1|]. split; assumption.
  - intros (H & H1). split; [apply nth_old, H|exact H1].
Qed.
Lemma agrees_new W h i vs : agrees W h -> stands (W ++ [i]) (h ++ [vs]) (length W) i -> agrees (W ++ [i]) (h ++ [vs]).
Proof.
  intros (L & A) H. split; [rewrite !app_length, L; reflexivity|]. intros n j E. destruct (Nat.lt_ge_cases n (length W)) as [C|C].
  - rewrite nth_error_app1 in E by exact C. apply stands_old, A, E.
  - rewrite nth_error_app2 in E by exact C. destruct (n - length W) as [|k] eqn:D; [|destruct k; discriminate E]. cbn in E. injection E as <-.
    replace n with (length W) by lia. exact H.
Qed.
(** A write into one vector *)
Lemma agrees_write W h n i j vs : agrees W h -> nth_error W n = Some i -> (forall tags, i <> SType tags) -> (forall tags, j <> SType tags) ->
  stands (replace W n j) (replace h n vs) n j -> agrees (replace W n j) (replace h n vs).
Proof.
  intros (L & A) E Ni Nj H. split; [rewrite !replace_len; exact L|]. intros m k Em. destruct (Nat.eq_dec m n) as [->|N].
  - rewrite replace_eq in Em by (eapply nth_len, E). injection Em as <-. exact H.
  - rewrite replace_ne in Em by congruence. specialize (A _ _ Em). destruct k as [tags|t f|ws]; cbn [stands] in *; rewrite ?replace_ne by congruence; try exact A.
    destruct A as (Nt & tags & us & H1 & H2). split; [exact Nt|]. exists tags, us. split; [|rewrite replace_ne by congruence; exact H2]. rewrite replace_ne; [exact H1|]. intros ->. rewrite E in H1. injection H1 as ->. eapply Ni. reflexivity.
Qed.
Lemma indexes_agree W h t fields tags : agrees W h -> nth_error W t = Some (SType fields) ->
  match field_indexes h (Ref t) tags with
  | Some is => forallb (is_field fields) tags = true /\ Forall2 (fun tag i => exists k, i = 1 + k /\ index_loop tag 0 fields = Some k) tags is
  | None => forallb (is_field fields) tags = false
  end.
Proof.
  intros A H. induction tags as [|tag tags IH]; cbn [field_indexes forallb]; [split; constructor|].
  rewrite (index_of_field _ _ _ _ _ A H), (index_field tag fields). destruct (index_loop tag 0 fields) as [k|] eqn:E; cbn [bind andb]; [|reflexivity].
  destruct (field_indexes h (Ref t) tags) as [is|]; cbn [bind]; [|exact IH]. destruct IH as (F1 & F2). split; [exact F1|]. constructor; [|exact F2]. exists k. auto.
Qed.
(** The fields of a new instance *)
Lemma set_all_agree h (fields tags : list nat) is t args vs f : length args = length tags ->
  Forall2 (fun tag i => exists k, i = 1 + k /\ index_loop tag 0 fields = Some k) tags is -> length vs = length fields ->
  (forall tag i, index_loop tag 0 fields = Some i -> nth_error vs i = Some (f tag)) ->
  exists us, set_all (h ++ [Marker :: Ref t :: vs]) (Ref (length h)) args is = Some (h ++ [Marker :: Ref t :: us]) /\ length us = length fields /\
    forall tag i, index_loop tag 0 fields = Some i -> nth_error us i = Some (assign_all f tags args tag).
Proof.
  intros L F. revert args vs f L. induction F as [|tag i tags is (k & -> & E) F IH]; intros [|x args] vs f L Lv V; cbn in L; try lia; cbn [set_all assign_all].
  - exists vs. auto.
  - unfold record_set at 1, vector_set. rewrite nth_last. replace (1 + k + 1) with (S (S k)) by lia. cbn [length].
    assert (Hk : k < length vs) by (rewrite Lv; eapply nth_len, index_at, E).
    assert ((S (S k) <? S (S (length vs))) = true) as -> by (apply Nat.ltb_lt; lia). cbn [bind replace]. rewrite replace_last.
    apply IH; [lia|rewrite replace_len; exact Lv|]. intros tag' i' E'. unfold assign. destruct (Nat.eqb_spec tag' tag) as [->|N].
    + rewrite E in E'. injection E' as <-. apply replace_eq, Hk.
    + rewrite replace_ne; [apply V, E'|]. intros ->. apply index_at in E. apply index_at in E'. congruence.
Qed.

(** One operation: the same answer, and the vectors agree again *)
Lemma perform_agrees W h o : agrees W h -> fair W o -> snd (perform h o) = snd (does W o) /\ agrees (fst (does W o)) (fst (perform h o)).
Proof.
  intros A Fr. pose proof A as (L & As). destruct o as [name tags|type tags args|type tag x y|type tag x|type x|vs|x i y|x i|x]; cbn [fair] in Fr.
  - cbn [perform does]. unfold make_record_type. rewrite make_last. cbn [bind repeat]. do 3 (rewrite set_last by (cbn; lia); cbn [bind Nat.add replace]).
    cbn [fst snd]. rewrite L. split; [reflexivity|].
    apply agrees_new; [exact A|]. exists name. rewrite L. apply nth_last.
  - destruct Fr as (t & fields & -> & N & E). cbn [perform does]. unfold fields_of, item_at. rewrite E. unfold record_constructor. rewrite (tags_of _ _ _ _ A E). cbn [bind].
    pose proof (indexes_agree W h t fields tags A E) as Ix. destruct (field_indexes h (Ref t) tags) as [is|]; [|rewrite Ix; cbn; auto].
    destruct Ix as (F1 & F2). rewrite F1. cbn [bind andb c_type c_size c_count c_indexes]. unfold construct. cbn [c_type c_size c_count c_indexes].
    destruct (Nat.eqb_spec (length args) (length tags)) as [La|La]; [|cbn; auto].
    rewrite make_last. cbn [bind]. rewrite Nat.add_1_r. cbn [repeat]. rewrite set_last by (cbn; lia). cbn [bind Nat.add replace].
    destruct (set_all_agree h fields tags is t args (repeat Unspecified (length fields)) (fun _ => Unspecified) La F2) as (us & -> & Lu & Hu).
    { apply repeat_length. }
    { intros tag i Hi. assert (i < length fields) by (eapply nth_len, index_at, Hi). clear - H. revert i H. induction (length fields) as [|m IH]; intros [|i] H; cbn; try lia; [reflexivity|apply IH; lia]. }
    cbn [bind fst snd]. rewrite L. split; [reflexivity|]. apply agrees_new; [exact A|]. cbn [stands]. split; [exact N|]. exists fields, us. split; [apply nth_old, E|]. split; [rewrite L; apply nth_last|auto].
  - destruct Fr as (t & fields & -> & N & E). cbn [perform does]. unfold fields_of, item_at. rewrite E, (index_of_field _ _ _ _ _ A E), (index_field tag fields).
    pose proof (predicate_agrees W h t x A N) as Pr. unfold modify.
    destruct (instance W (Ref t) x) as [[[n u] f]|] eqn:In.
    + unfold instance in In. destruct x as [| | |m| |]; try discriminate In. destruct (nth_error W m) as [[| u' f' |]|] eqn:Em; try discriminate In. destruct (Nat.eqb_spec u' t) as [->|]; [|discriminate In].
      injection In as -> <- ->. pose proof (As _ _ Em) as (_ & tags & vs & E' & Hm & Lv & V). rewrite E in E'. injection E' as <-.
      destruct (index_loop tag 0 fields) as [k|] eqn:Ik; cbn [bind]; [|cbn; auto]. rewrite Pr. unfold record_set, vector_set. rewrite Hm. cbn [length].
      assert (Hk : k < length vs) by (rewrite Lv; eapply nth_len, index_at, Ik).
      assert ((1 + k + 1 <? S (S (length vs))) = true) as -> by (apply Nat.ltb_lt; lia). replace (1 + k + 1) with (S (S k)) by lia. cbn [replace fst snd]. split; [reflexivity|].
      eapply agrees_write; [exact A|exact Em|discriminate|discriminate|]. cbn [stands]. split; [exact N|]. exists fields, (replace vs k y).
      split; [rewrite replace_ne; [exact E|]; intros ->; congruence|]. split; [apply replace_eq; eapply nth_len, Hm|]. split; [rewrite replace_len; exact Lv|].
      intros tag' i' E'. unfold assign. destruct (Nat.eqb_spec tag' tag) as [->|N'].
      * rewrite Ik in E'. injection E' as <-. apply replace_eq, Hk.
      * rewrite replace_ne; [apply V, E'|]. intros ->. apply index_at in Ik. apply index_at in E'. congruence.
    + destruct (index_loop tag 0 fields) as [k|]; cbn [bind]; rewrite ?Pr; cbn; auto.
  - destruct Fr as (t & fields & -> & N & E). cbn [perform does]. unfold fields_of, item_at. rewrite E, (index_of_field _ _ _ _ _ A E), (index_field tag fields).
    pose proof (predicate_agrees W h t x A N) as Pr. unfold access.
    destruct (instance W (Ref t) x) as [[[n u] f]|] eqn:In.
    + unfold instance in In. destruct x as [| | |m| |]; try discriminate In. destruct (nth_error W m) as [[| u' f' |]|] eqn:Em; try discriminate In. destruct (Nat.eqb_spec u' t) as [->|]; [|discriminate In].
      injection In as -> <- ->. pose proof (As _ _ Em) as (_ & tags & vs & E' & Hm & Lv & V). rewrite E in E'. injection E' as <-.
      destruct (index_loop tag 0 fields) as [k|] eqn:Ik; cbn [bind]; [|cbn; auto]. rewrite Pr. unfold record_ref, vector_ref. rewrite Hm. replace (1 + k + 1) with (S (S k)) by lia. cbn [nth_error fst snd].
      rewrite (V _ _ Ik). auto.
    + destruct (index_loop tag 0 fields) as [k|]; cbn [bind]; rewrite ?Pr; cbn; auto.
  - destruct Fr as (t & fields & -> & N & E). cbn [perform does fst snd]. rewrite (predicate_agrees W h t x A N). auto.
  - cbn [perform does fst snd]. rewrite L. split; [reflexivity|]. apply agrees_new; [exact A|]. cbn [stands]. rewrite L. split; [apply nth_last|exact Fr].
  - destruct Fr as (Nr & Ny). cbn [perform does]. destruct x as [| | |n| |]; cbn [vector_set item_at]; try (cbn; auto; fail). unfold no_record, item_at in Nr.
    destruct (nth_error W n) as [[|u f|vs]|] eqn:E; try contradiction.
    + destruct (As _ _ E) as (Hn & Hd). rewrite Hn. destruct (Nat.ltb_spec i (length vs)) as [Hi|Hi]; [|cbn; auto]. cbn [fst snd]. split; [reflexivity|].
      eapply agrees_write; [exact A|exact E|discriminate|discriminate|]. cbn [stands]. split; [apply replace_eq; eapply nth_len, Hn|].
      destruct vs as [|v vs]; [exact Hd|]. destruct i; cbn in *; congruence.
    + assert (nth_error h n = None) as -> by (apply nth_error_None in E; apply nth_error_None; lia). cbn. auto.
  - cbn [perform does fst snd]. split; [|exact A]. unfold no_record in Fr. destruct x as [| | |n| |]; cbn [vector_ref item_at] in *; try reflexivity.
    destruct (nth_error W n) as [[|u f|vs]|] eqn:E; try contradiction.
    + destruct (As _ _ E) as (-> & _). destruct (nth_error vs i); reflexivity.
    + assert (nth_error h n = None) as -> by (apply nth_error_None in E; apply nth_error_None; lia). reflexivity.
  - cbn [perform does fst snd]. split; [|exact A]. unfold no_record in Fr. destruct x as [| | |n| |]; cbn [is_vector item_at] in *; try reflexivity.
    destruct (nth_error W n) as [[|u f|vs]|] eqn:E; try contradiction.
    + apply nth_len in E. assert ((n <? length h) = true) as -> by (apply Nat.ltb_lt; lia). reflexivity.
    + apply nth_error_None in E. assert ((n <? length h) = false) as -> by (apply Nat.ltb_ge; lia). reflexivity.
Qed.
Lemma all_agree os : forall W h, agrees W h -> fair_all W os -> snd (perform_all h os) = snd (does_all W os) /\ agrees (fst (does_all W os)) (fst (perform_all h os)).
Proof.
  induction os as [|o os IH]; intros W h A F; cbn [perform_all does_all fair_all] in *; [auto|]. destruct F as (F & Fs). destruct (perform_agrees W h o A F) as (E & A').
  destruct (perform h o) as [h' r]. destruct (does W o) as [W' r']. cbn [fst snd] in *. subst r'. destruct (IH W' h' A' Fs) as (E & A2).
  destruct (perform_all h' os). destruct (does_all W' os). cbn [fst snd] in *. subst. auto.
Qed.
Lemma first_agrees : agrees first_world first_store.
Proof. split; [reflexivity|]. intros [|[|n]] i H; cbn in H; try discriminate H. injection H as <-. exists 0. reflexivity. Qed.

(** ** C44 *)
(** Whatever a program does with records and vectors, one after the other: it gets the
    answers of the specification *)
Theorem C44_history_partial : forall os, fair_all first_world os -> snd (perform_all first_store os) = snd (does_all first_world os).
Proof. intros os F. apply all_agree; [apply first_agrees|exact F]. Qed.
Print Assumptions C44_history_partial.
(** The predicate holds exactly for the instances of the type: of what a constructor of this
    type returned *)
Theorem C44_predicate_partial : forall os type x, fair_all first_world os -> a_type (fst (does_all first_world os)) type ->
  predicate (fst (perform_all first_store os)) type x = true <-> exists t n f, type = Ref t /\ x = Ref n /\ nth_error (fst (does_all first_world os)) n = Some (SInst t f).
Proof.
  intros os type x F (t & tags & -> & N & E). destruct (all_agree os _ _ first_agrees F) as (_ & A). rewrite (predicate_agrees _ _ t x A N). unfold instance. split.
  - destruct x as [| | |n| |]; try discriminate. destruct (nth_error (fst (does_all first_world os)) n) as [[|u f|]|] eqn:En; try discriminate.
    destruct (Nat.eqb_spec u t) as [->|]; [|discriminate]. intros _. exists t, n, f. auto.
  - intros (t' & n & f & Et & -> & En). injection Et as <-. rewrite En, Nat.eqb_refl. reflexivity.
Qed.
Print Assumptions C44_predicate_partial.
(** Instances stay instances, and a field keeps its value until it is modified *)
Definition modifies (n tag : nat) (o : op) : Prop := exists type y, o = OModify type tag (Ref n) y.
Lemma does_keeps W o n t f tag : nth_error W n = Some (SInst t f) -> ~ modifies n tag o -> exists f', nth_error (fst (does W o)) n = Some (SInst t f') /\ f' tag = f tag.
Proof.
  intros E M. assert (Same : exists f', nth_error W n = Some (SInst t f') /\ f' tag = f tag) by (exists f; auto).
  assert (New : forall i, exists f', nth_error (W ++ [i]) n = Some (SInst t f') /\ f' tag = f tag) by (intros i; exists f; split; [apply nth_old, E|reflexivity]).
  destruct o as [name tags|type tags args|type tag' x y|type tag' x|type x|vs|x i y|x i|x]; cbn [does fst]; try exact Same; try apply New.
  - destruct type; try exact Same. destruct (forallb _ _ && _); [apply New|exact Same].
  - unfold instance. destruct type as [| | |u| |]; try exact Same. destruct x as [| | |m| |]; try exact Same. destruct (nth_error W m) as [[|u' g|]|] eqn:Em; try exact Same.
    destruct (Nat.eqb_spec u' u) as [->|]; [|exact Same]. destruct (is_field _ tag'); [|exact Same]. cbn [fst]. destruct (Nat.eq_dec m n) as [->|Ne].
    + rewrite E in Em. injection Em as -> ->. eexists. split; [apply replace_eq; eapply nth_len, E|]. unfold assign. destruct (Nat.eqb_spec tag tag') as [->|]; [|reflexivity].
      exfalso. apply M. exists (Ref u), y. reflexivity.
    + exists f. rewrite replace_ne by exact Ne. auto.
  - destruct (instance W type x) as [[[? ?] ?]|]; exact Same.
  - destruct x as [| | |m| |]; cbn [item_at]; try exact Same. destruct (nth_error W m) as [[|u' g|vs]|] eqn:Em; try exact Same. destruct (i <? length vs); [|exact Same].
    exists f. cbn [fst]. rewrite replace_ne; [auto|]. intros ->. congruence.
Qed.
Lemma does_all_keeps os : forall W n t f tag, nth_error W n = Some (SInst t f) -> (forall o, In o os -> ~ modifies n tag o) ->
  exists f', nth_error (fst (does_all W os)) n = Some (SInst t f') /\ f' tag = f tag.
Proof.
  induction os as [|o os IH]; intros W n t f tag E M; cbn [does_all]; [exists f; auto|]. destruct (does_keeps W o n t f tag E) as (f1 & E1 & H1); [apply M; left; reflexivity|].
  destruct (does W o) as [W1 r]. cbn [fst] in E1. destruct (IH W1 n t f1 tag E1) as (f2 & E2 & H2); [intros o' H'; apply M; right; exact H'|].
  destruct (does_all W1 os). exists f2. cbn [fst] in *. split; [exact E2|congruence].
Qed.
Lemma does_all_app os : forall W os', does_all W (os ++ os') = (fst (does_all (fst (does_all W os)) os'), snd (does_all W os) ++ snd (does_all (fst (does_all W os)) os')).
Proof.
  induction os as [|o os IH]; intros W os'; cbn [app does_all]; [cbn [fst snd app]; apply surjective_pairing|]. destruct (does W o) as [W1 r]. rewrite IH.
  destruct (does_all W1 os) as [W2 rs]. reflexivity.
Qed.
(** An accessor returns what the last modifier of the field was given: for every history os,
    and after any os' in which the field of this instance is not modified *)
Theorem C44_last_partial : forall os os' t tag n y, fair_all first_world (os ++ OModify (Ref t) tag (Ref n) y :: os' ++ [OAccess (Ref t) tag (Ref n)]) ->
  (forall o, In o os' -> ~ modifies n tag o) ->
  nth_error (snd (perform_all first_store (os ++ [OModify (Ref t) tag (Ref n) y]))) (length os) = Some Done ->
  last (snd (perform_all first_store (os ++ OModify (Ref t) tag (Ref n) y :: os' ++ [OAccess (Ref t) tag (Ref n)]))) Error = Val y.
Proof.
  intros os os' t tag n y F M D.
  assert (F1 : fair_all first_world (os ++ [OModify (Ref t) tag (Ref n) y])).
  { clear D M. revert F. generalize first_world. induction os as [|o os IH]; intros W F; cbn [app fair_all] in *; destruct F as (F1 & F2); [split; [exact F1|exact I]|split; [exact F1|apply IH, F2]]. }
  rewrite C44_history_partial in D by exact F1. rewrite C44_history_partial by exact F.
  assert (Len : forall os W, length (snd (does_all W os)) = length os).
  { clear. induction os as [|o os IH]; intros W; cbn [does_all]; [reflexivity|]. destruct (does W o) as [W1 r]. specialize (IH W1). destruct (does_all W1 os). cbn in *. lia. }
  rewrite does_all_app in D. cbn [snd] in D. rewrite nth_error_app2, Len, Nat.sub_diag in D by (rewrite Len; lia).
  rewrite does_all_app. cbn [snd]. set (W := fst (does_all first_world os)) in *. cbn [does_all] in D |- *.
  destruct (does W (OModify (Ref t) tag (Ref n) y)) as [W1 r1] eqn:Dm. cbn in D. injection D as ->.
  rewrite does_all_app. cbn [does_all snd]. cbn [does] in Dm. unfold instance in Dm. destruct (nth_error W n) as [[|u f|]|] eqn:En; try discriminate Dm.
  destruct (Nat.eqb_spec u t) as [->|]; [|discriminate Dm]. destruct (is_field (fields_of W (Ref t)) tag) eqn:Fd; [|discriminate Dm]. injection Dm as <-.
  destruct (does_all_keeps os' (replace W n (SInst t (assign f tag y))) n t (assign f tag y) tag) as (f2 & E2 & H2); [apply replace_eq; eapply nth_len, En|exact M|].
  (* the tags of the type are those that they were *)
  assert (Tk : forall os W tags, nth_error W t = Some (SType tags) -> nth_error (fst (does_all W os)) t = Some (SType tags)).
  { clear. induction os as [|o os IH]; intros W tags E; cbn [does_all]; [exact E|].
    assert (E1 : nth_error (fst (does W o)) t = Some (SType tags)).
    { destruct o as [name tags'|type tags' args|type tag' x y|type tag' x|type x|vs|x i y|x i|x]; cbn [does fst]; try exact E; try (apply nth_old, E).
      - destruct type; try exact E. destruct (forallb _ _ && _); [apply nth_old, E|exact E].
      - unfold instance. destruct type as [| | |u| |]; try exact E. destruct x as [| | |m| |]; try exact E. destruct (nth_error W m) as [[|u' g|]|] eqn:Em; try exact E.
        destruct (u' =? u); [|exact E]. destruct (is_field _ tag'); [|exact E]. cbn [fst]. rewrite replace_ne; [exact E|]. intros ->. congruence.
      - destruct (instance W type x) as [[[? ?] ?]|]; exact E.
      - destruct x as [| | |m| |]; cbn [item_at]; try exact E. destruct (nth_error W m) as [[|u' g|vs]|] eqn:Em; try exact E. destruct (i <? length vs); [|exact E].
        cbn [fst]. rewrite replace_ne; [exact E|]. intros ->. congruence. }
    destruct (does W o) as [W1 r]. specialize (IH W1 tags E1). destruct (does_all W1 os). exact IH. }
  unfold fields_of, item_at in Fd. destruct (nth_error W t) as [[tags| |]|] eqn:Et; try discriminate Fd.
  assert (Et' : nth_error (replace W n (SInst t (assign f tag y))) t = Some (SType tags)) by (rewrite replace_ne; [exact Et|]; intros ->; congruence).
  specialize (Tk os' _ tags Et'). set (W2 := fst (does_all (replace W n (SInst t (assign f tag y))) os')) in *.
  cbn [does]. unfold instance. rewrite E2, Nat.eqb_refl. unfold fields_of, item_at. rewrite Tk, Fd. cbn [snd].
  rewrite H2. unfold assign. rewrite Nat.eqb_refl. rewrite app_comm_cons, app_assoc. apply last_last.
Qed.
Print Assumptions C44_last_partial.

(** ** What is violated *)
(** Record types are not disjoint from vectors: every instance is a vector *)
Theorem C44_disjoint_refuted : forall os n t f, fair_all first_world os -> nth_error (fst (does_all first_world os)) n = Some (SInst t f) ->
  is_vector (fst (perform_all first_store os)) (Ref n) = true.
Proof.
  intros os n t f F E. destruct (all_agree os _ _ first_agrees F) as (_ & L & _). apply nth_len in E. cbn [is_vector]. apply Nat.ltb_lt. lia.
Qed.
Print Assumptions C44_disjoint_refuted.
(** and a vector with the first two elements of an instance is an instance for the predicate and
    the accessor, although no constructor made it; the marker and the type can be read
    from any instance with vector-ref *)
Theorem C44_forged_refuted : exists os, os =
  [ODefine 7 [8]; OConstruct (Ref 1) [8] [Other 3]; OVectorRef (Ref 2) 0; OVectorRef (Ref 2) 1; OVector [Marker; Ref 1; Other 4]; OPredicate (Ref 1) (Ref 3); OAccess (Ref 1) 8 (Ref 3)] /\
  snd (perform_all first_store os) = [Val (Ref 1); Val (Ref 2); Val Marker; Val (Ref 1); Val (Ref 3); Bool true; Val (Other 4)].
Proof. eexists. split; reflexivity. Qed.
Print Assumptions C44_forged_refuted.

(** ** Examples *)
Definition C44_program : list op :=
  [ODefine 7 [8; 9]; ODefine 7 [8; 9]; OConstruct (Ref 1) [9] [Other 5]; OConstruct (Ref 2) [8; 9] [Other 1; Other 2];
   OPredicate (Ref 1) (Ref 3); OPredicate (Ref 2) (Ref 3); OAccess (Ref 1) 9 (Ref 3); OModify (Ref 1) 9 (Ref 3) (Other 6); OAccess (Ref 1) 9 (Ref 3); OAccess (Ref 2) 9 (Ref 3); OAccess (Ref 2) 9 (Ref 4);
   OVector [Other 0; Ref 1]; OPredicate (Ref 1) (Ref 5); OConstruct (Ref 1) [9] []; OAccess (Ref 1) 10 (Ref 3)].
Example C44_ex : fair_all first_world C44_program /\ snd (perform_all first_store C44_program) =
  [Val (Ref 1); Val (Ref 2); Val (Ref 3); Val (Ref 4); Bool true; Bool false; Val (Other 5); Done; Val (Other 6); Error; Val (Other 2); Val (Ref 5); Bool false; Error; Error].
Proof.
  split; [|reflexivity]. unfold C44_program, first_world. cbn [fair_all]. 
  repeat (split; [cbn; first [exact I|discriminate|unfold a_type; eexists _, _; split; [reflexivity|]; split; [discriminate|reflexivity]]|]). exact I.
Qed.
