From Coq Require Import String ZArith List Bool Lia.
From Verif Require Import Number NumberText Bitwise Writer UnicodeTables Unicode.
Import ListNotations.
Open Scope Z_scope.

(** ** Searching a switch in logarithmic time *)
Inductive tree (A : Type) := Leaf | Node (l : tree A) (e : entry A) (r : tree A).
Arguments Leaf {A}. Arguments Node {A} l e r.
Fixpoint find {A} (t : tree A) (c : Z) : option A :=
  match t with
  | Leaf => None
  | Node l e r => if c <? low e then find l c else if c <=? high e then Some (val e) else find r c
  end.
Fixpoint build {A} (h : nat) (l : list (entry A)) : tree A * list (entry A) :=
  match h with
  | O => (Leaf, l)
  | S h => let (t, l) := build h l in
           match l with
           | [] => (t, [])
           | e :: l => let (u, l) := build h l in (Node t e u, l)
           end
  end.
Fixpoint flatten {A} (t : tree A) : list (entry A) :=
  match t with Leaf => [] | Node l e r => flatten l ++ e :: flatten r end.
Lemma build_flatten {A} h : forall l : list (entry A), flatten (fst (build h l)) ++ snd (build h l) = l.
Proof.
  induction h as [|h IH]; intros l; simpl; [reflexivity|].
  pose proof (IH l) as H. destruct (build h l) as [t [|e m]]; simpl in *; [assumption|].
  pose proof (IH m) as K. destruct (build h m) as [u n]; simpl in *. rewrite <- app_assoc. simpl. rewrite K. assumption.
Qed.
(** Cases in order, without overlap *)
Fixpoint sorted {A} (b : Z) (l : list (entry A)) : bool :=
  match l with [] => true | e :: l => (b <? low e) && (low e <=? high e) && sorted (high e) l end.
Lemma sorted_app {A} (l m : list (entry A)) : forall b, sorted b (l ++ m) = true ->
  sorted b l = true /\ exists b', b <= b' /\ (forall e, In e l -> high e <= b') /\ sorted b' m = true.
Proof.
  induction l as [|e l IH]; intros b H; simpl in *.
  - split; [reflexivity|]. exists b. split; [lia|]. split; [tauto|assumption].
  - apply andb_true_iff in H. destruct H as [H1 H2]. destruct (IH _ H2) as [H3 (b' & B1 & B2 & B3)].
    rewrite H1, H3. split; [reflexivity|]. exists b'. apply andb_true_iff in H1. destruct H1.
    split; [lia|]. split; [intros x [<-|X]; auto|assumption].
Qed.
Lemma sorted_in {A} (l : list (entry A)) : forall b e, sorted b l = true -> In e l -> b < low e /\ low e <= high e.
Proof.
  induction l as [|x l IH]; intros b e H I; simpl in *; [tauto|].
  apply andb_true_iff in H. destruct H as [H1 H2]. apply andb_true_iff in H1. destruct H1.
  destruct I as [->|I]; [lia|]. destruct (IH _ _ H2 I). lia.
Qed.
Lemma switch_none {A} (l : list (entry A)) c : (forall e, In e l -> c < low e \/ high e < c) -> switch l c = None.
Proof.
  induction l as [|e l IH]; intros H; simpl; [reflexivity|].
  destruct (H e (or_introl eq_refl)); rewrite IH by (intros; apply H; right; assumption);
    destruct (Z.leb_spec (low e) c); destruct (Z.leb_spec c (high e)); simpl; try lia; reflexivity.
Qed.
Lemma switch_app {A} (l m : list (entry A)) c : switch (l ++ m) c = match switch l c with Some v => Some v | None => switch m c end.
Proof. induction l as [|e l IH]; simpl; [reflexivity|]. destruct ((low e <=? c) && (c <=? high e)); [reflexivity|assumption]. Qed.
Lemma find_switch {A} (t : tree A) : forall b c, sorted b (flatten t) = true -> find t c = switch (flatten t) c.
Proof.
  induction t as [|l IHl e r IHr]; intros b c H; simpl in *; [reflexivity|].
  destruct (sorted_app _ _ _ H) as [H1 (b' & B1 & B2 & B3)]. pose proof B3 as B4. simpl in B3. apply andb_true_iff in B3.
  destruct B3 as [B3 B5]. apply andb_true_iff in B3. destruct B3 as [B6 B7].
  rewrite switch_app. simpl.
  destruct (Z.ltb_spec c (low e)).
  - rewrite (IHl _ _ H1). destruct (switch (flatten l) c); [reflexivity|].
    destruct (Z.leb_spec (low e) c); [lia|]. simpl. symmetry. apply switch_none.
    intros x X. destruct (sorted_in _ _ _ B5 X). lia.
  - rewrite (switch_none (flatten l)) by (intros x X; specialize (B2 x X); lia).
    destruct (Z.leb_spec (low e) c); [|lia]. simpl. destruct (Z.leb_spec c (high e)); [reflexivity|]. apply (IHr _ _ B5).
Qed.
Definition fast {A} (l : list (entry A)) : tree A := fst (build 12 l).
Definition whole {A} (l : list (entry A)) : bool := match snd (build 12 l) with [] => true | _ => false end.
Lemma fast_switch {A} (l : list (entry A)) c : sorted (-1) l = true -> whole l = true -> find (fast l) c = switch l c.
Proof.
  intros S Wh. unfold fast, whole in *. pose proof (build_flatten 12 l) as B. destruct (build 12 l) as [t [|x y]]; [|discriminate].
  simpl in *. rewrite app_nil_r in B. rewrite <- B in S |- *. eapply find_switch. eassumption.
Qed.
Lemma switch_in {A} (l : list (entry A)) c v : switch l c = Some v -> exists e, In e l /\ low e <= c <= high e /\ val e = v.
Proof.
  induction l as [|e l IH]; simpl; [discriminate|].
  destruct (Z.leb_spec (low e) c); destruct (Z.leb_spec c (high e)); simpl; intros H1;
    try (apply IH in H1; destruct H1 as (x & X & Y); exists x; auto).
  inversion H1. exists e. auto.
Qed.

(** ** The tables are in order *)
Definition in_order {A} (l : list (entry A)) : bool := sorted (-1) l && whole l.
Lemma property_in_order : in_order property_cases = true. Proof. vm_compute. reflexivity. Qed.
Lemma digit_in_order : in_order digit_value_cases = true. Proof. vm_compute. reflexivity. Qed.
Lemma upcase_in_order : in_order upcase_cases = true. Proof. vm_compute. reflexivity. Qed.
Lemma downcase_in_order : in_order downcase_cases = true. Proof. vm_compute. reflexivity. Qed.
Lemma fast_in_order {A} (l : list (entry A)) c : in_order l = true -> switch l c = find (fast l) c.
Proof. intros H. apply andb_true_iff in H. destruct H. symmetry. apply fast_switch; assumption. Qed.
Definition property_tree := fast property_cases.
Definition digit_tree := fast digit_value_cases.
Definition upcase_tree := fast upcase_cases.
Definition downcase_tree := fast downcase_cases.
Lemma property_fast c : switch property_cases c = find property_tree c.
Proof. exact (fast_in_order property_cases c property_in_order). Qed.
Lemma digit_fast c : switch digit_value_cases c = find digit_tree c.
Proof. exact (fast_in_order digit_value_cases c digit_in_order). Qed.
Lemma upcase_fast c : switch upcase_cases c = find upcase_tree c.
Proof. exact (fast_in_order upcase_cases c upcase_in_order). Qed.
Lemma downcase_fast c : switch downcase_cases c = find downcase_tree c.
Proof. exact (fast_in_order downcase_cases c downcase_in_order). Qed.
Global Opaque property_cases digit_value_cases upcase_cases downcase_cases ranges property_tree digit_tree upcase_tree downcase_tree.

(** ** Facts computed once from the tables *)
Definition up_with (t : tree Z) (c : Z) : Z := match find t c with Some v => v | None => c end.
Definition kind_with (t : tree category) (c : Z) : category := match find t c with Some g => g | None => Cn end.
Lemma upcase_with c : upcase c = up_with upcase_tree c.
Proof. unfold upcase, up_with. rewrite upcase_fast. reflexivity. Qed.
Lemma downcase_with c : downcase c = up_with downcase_tree c.
Proof. unfold downcase, up_with. rewrite downcase_fast. reflexivity. Qed.
Lemma property_with c : property c = kind_with property_tree c.
Proof. unfold property, kind_with. rewrite property_fast. reflexivity. Qed.

(** The characters with two lower-case forms of one upper-case form, and so on *)
Definition odd_lower : list Z :=
  [0xB5; 0x131; 0x17F; 0x345; 0x3C2; 0x3D0; 0x3D1; 0x3D5; 0x3D6; 0x3F0; 0x3F1; 0x3F5; 0x1C80; 0x1C81; 0x1C82; 0x1C83; 0x1C84;
   0x1C85; 0x1C86; 0x1C87; 0x1C88; 0x1E9B; 0x1FBE].
Definition odd_upper : list Z := [0x130; 0x3F4; 0x1E9E; 0x2126; 0x212A; 0x212B].
Definition member (c : Z) (l : list Z) : bool := existsb (Z.eqb c) l.
Definition scalar (c : Z) : bool := ((0 <=? c) && (c <=? 0xD7FF)) || ((0xE000 <=? c) && (c <=? 0x10FFFF)).

Definition up_ok (ut dt : tree Z) (kt : tree category) (e : entry Z) : bool :=
  let c := low e in let v := val e in
  (low e =? high e) && (up_with ut v =? v) && ((up_with dt v =? up_with dt c) || member c odd_lower) &&
  negb (is_lower_case (kind_with kt v)) && scalar v.
Definition down_ok (ut dt : tree Z) (kt : tree category) (e : entry Z) : bool :=
  let c := low e in let v := val e in
  (low e =? high e) && (up_with dt v =? v) && ((up_with ut v =? up_with ut c) || member c odd_upper) &&
  negb (is_upper_case (kind_with kt v)) && scalar v.
Definition case_tables_ok : bool :=
  let ut := upcase_tree in let dt := downcase_tree in let kt := property_tree in
  forallb (up_ok ut dt kt) upcase_cases && forallb (down_ok ut dt kt) downcase_cases.
Lemma case_tables_ok_true : case_tables_ok = true.
Proof. vm_compute. reflexivity. Qed.

Lemma up_case c v : switch upcase_cases c = Some v ->
  upcase v = v /\ (downcase v = downcase c \/ In c odd_lower) /\ char_lower_case v = false /\ scalar v = true.
Proof.
  intros H. apply switch_in in H. destruct H as (e & I & L & <-).
  pose proof case_tables_ok_true as T. unfold case_tables_ok in T. apply andb_true_iff in T. destruct T as [T _].
  rewrite forallb_forall in T. specialize (T e I). unfold up_ok in T. rewrite !andb_true_iff in T.
  destruct T as [[[[T1 T2] T3] T4] T5]. assert (c = low e) by lia. subst c.
  unfold char_lower_case. rewrite (upcase_with (val e)), (downcase_with (val e)), (downcase_with (low e)), (property_with (val e)).
  split; [lia|]. split; [|split; [|assumption]].
  - apply orb_true_iff in T3. destruct T3 as [T3|T3]; [left; lia|right].
    unfold member in T3. apply existsb_exists in T3. destruct T3 as (x & X & Y). apply Z.eqb_eq in Y. subst. assumption.
  - destruct (is_lower_case _); [discriminate|reflexivity].
Qed.
Lemma down_case c v : switch downcase_cases c = Some v ->
  downcase v = v /\ (upcase v = upcase c \/ In c odd_upper) /\ char_upper_case v = false /\ scalar v = true.
Proof.
  intros H. apply switch_in in H. destruct H as (e & I & L & <-).
  pose proof case_tables_ok_true as T. unfold case_tables_ok in T. apply andb_true_iff in T. destruct T as [_ T].
  rewrite forallb_forall in T. specialize (T e I). unfold down_ok in T. rewrite !andb_true_iff in T.
  destruct T as [[[[T1 T2] T3] T4] T5]. assert (c = low e) by lia. subst c.
  unfold char_upper_case. rewrite (downcase_with (val e)), (upcase_with (val e)), (upcase_with (low e)), (property_with (val e)).
  split; [lia|]. split; [|split; [|assumption]].
  - apply orb_true_iff in T3. destruct T3 as [T3|T3]; [left; lia|right].
    unfold member in T3. apply existsb_exists in T3. destruct T3 as (x & X & Y). apply Z.eqb_eq in Y. subst. assumption.
  - destruct (is_upper_case _); [discriminate|reflexivity].
Qed.

(** Digits *)
Fixpoint upto (n : nat) (lo : Z) : list Z := match n with O => [] | S n => lo :: upto n (lo + 1) end.
Lemma upto_in n : forall lo c, In c (upto n lo) <-> lo <= c < lo + Z.of_nat n.
Proof.
  induction n as [|n IH]; intros lo c; simpl upto; [simpl; lia|]. simpl In. rewrite IH. lia.
Qed.
Definition ten_ok (kt : tree category) (dt : tree Z) (c : Z) : bool :=
  match find dt c with
  | Some d => (0 <=? d) && (d <=? 9) &&
              forallb (fun i => is_numeric (kind_with kt (c - d + i)) && match find dt (c - d + i) with Some x => x =? i | None => false end) (upto 10 0)
  | None => false
  end.
Definition digits_ok : bool :=
  let kt := property_tree in let dt := digit_tree in
  forallb (fun e => if is_numeric (val e) then forallb (ten_ok kt dt) (upto (Z.to_nat (high e - low e + 1)) (low e)) else true) property_cases.
Lemma digits_ok_true : digits_ok = true.
Proof. vm_compute. reflexivity. Qed.
Lemma numeric_digit c : char_numeric c = true -> exists d, digit_value c = Some d /\ 0 <= d <= 9 /\
  forall i, 0 <= i <= 9 -> char_numeric (c - d + i) = true /\ digit_value (c - d + i) = Some i.
Proof.
  intros H. unfold char_numeric, property in H. destruct (switch property_cases c) as [g|] eqn:E; [|discriminate].
  apply switch_in in E. destruct E as (e & I & L & <-).
  pose proof digits_ok_true as T. unfold digits_ok in T. rewrite forallb_forall in T. specialize (T e I). rewrite H in T.
  rewrite forallb_forall in T. specialize (T c). rewrite upto_in in T. specialize (T ltac:(lia)). unfold ten_ok in T.
  unfold digit_value. rewrite digit_fast. destruct (find digit_tree c) as [d|] eqn:D; [|discriminate].
  exists d. split; [reflexivity|]. rewrite !andb_true_iff in T. destruct T as [[T1 T2] T3]. split; [lia|].
  intros i Hi. rewrite forallb_forall in T3. specialize (T3 i). rewrite upto_in in T3. specialize (T3 ltac:(lia)).
  apply andb_true_iff in T3. destruct T3 as [T3 T4]. unfold char_numeric. rewrite property_with. split; [assumption|].
  rewrite digit_fast. destruct (find digit_tree (c - d + i)) as [x|]; [|discriminate]. f_equal. lia.
Qed.

(** Ranges *)
Definition ranges_ok : bool :=
  forallb (fun r => forallb (fun e => (high e <=? low r) || (high r <=? low e) || (high e <? low e)) property_cases) ranges.
Lemma ranges_ok_true : ranges_ok = true.
Proof. vm_compute. reflexivity. Qed.
Lemma inside_range r c : In r ranges -> low r < c < high r -> property c = Cn.
Proof.
  intros I L. unfold property. rewrite switch_none; [reflexivity|]. intros e J.
  pose proof ranges_ok_true as T. unfold ranges_ok in T. rewrite forallb_forall in T. specialize (T r I).
  rewrite forallb_forall in T. specialize (T e J). lia.
Qed.

(** Adjacent pairs of a transitive relation *)
Lemma adjacent_all (R : Z -> Z -> bool) : (forall a b c, R a b = true -> R b c = true -> R a c = true) ->
  forall cs, adjacent R cs = true <-> ForallOrdPairs (fun a b => R a b = true) cs.
Proof.
  intros T. assert (A : forall cs a, adjacent R (a :: cs) = true -> Forall (fun b => R a b = true) cs).
  { induction cs as [|b cs IH]; intros a H; constructor.
    - simpl in H. apply andb_true_iff in H. tauto.
    - apply IH. destruct cs as [|c cs]; [reflexivity|]. simpl in H |- *. rewrite !andb_true_iff in *. split; [|tauto]. eapply T; [apply H|apply H]. }
  induction cs as [|a cs IH]; split; intros H; try constructor.
  - apply A. assumption.
  - apply IH. destruct cs; [reflexivity|]. simpl in H. apply andb_true_iff in H. tauto.
  - inversion H as [|? ? F O]; subst. destruct cs as [|b cs]; [reflexivity|]. change (R a b && adjacent R (b :: cs) = true).
    apply andb_true_iff. inversion F; subst. split; [assumption|]. apply IH. assumption.
Qed.

(** ** The generation of the tables *)
Lemma split_fields sep : forall fields cur, fields <> [] -> Forall (fun f => ~ In sep f) fields -> 
  forall join, join = (fix join (l : list (list Z)) := match l with [] => [] | [f] => f | f :: l => f ++ sep :: join l end) ->
  split_at sep cur (join fields) = match fields with [] => [] | f :: l => (rev cur ++ f) :: l end.
Proof.
  induction fields as [|f fields IH]; intros cur N F join J; [congruence|]. inversion F as [|? ? F1 F2]; subst.
  assert (A : forall f cur rest, ~ In sep f -> split_at sep cur (f ++ sep :: rest) = (rev cur ++ f) :: split_at sep [] rest).
  { induction f0 as [|x f0 IHf]; intros cur0 rest NI; simpl.
    - rewrite Z.eqb_refl, app_nil_r. reflexivity.
    - destruct (Z.eqb_spec x sep); [exfalso; apply NI; left; assumption|]. rewrite IHf by (intros ?; apply NI; right; assumption).
      simpl. rewrite <- app_assoc. reflexivity. }
  assert (B : forall f cur, ~ In sep f -> split_at sep cur f = [rev cur ++ f]).
  { induction f0 as [|x f0 IHf]; intros cur0 NI; simpl.
    - rewrite app_nil_r. reflexivity.
    - destruct (Z.eqb_spec x sep); [exfalso; apply NI; left; assumption|]. rewrite IHf by (intros ?; apply NI; right; assumption).
      simpl. rewrite <- app_assoc. reflexivity. }
  destruct fields as [|g fields]; [apply B; assumption|].
  rewrite A by assumption. f_equal. rewrite (IH [] ltac:(discriminate) F2 _ eq_refl). reflexivity.
Qed.

(** ** Code points *)
Definition points_ok : bool :=
  forallb (fun e => (0 <=? low e) && (high e <=? 0x10FFFF) && ((high e <=? 0xD7FF) || (0xE000 <=? low e) ||
     negb (is_letter (val e) || is_numeric (val e) || is_whitespace (val e)))) property_cases.
Lemma points_ok_true : points_ok = true.
Proof. vm_compute. reflexivity. Qed.
Lemma class_scalar c : char_alphabetic c || char_numeric c || char_whitespace c = true -> scalar c = true.
Proof.
  unfold char_alphabetic, char_numeric, char_whitespace, property. intros H.
  destruct (switch property_cases c) as [g|] eqn:E; [|discriminate].
  apply switch_in in E. destruct E as (e & I & L & <-).
  pose proof points_ok_true as T. unfold points_ok in T. rewrite forallb_forall in T. specialize (T e I). rewrite H in T.
  unfold scalar. rewrite !andb_true_iff, !orb_true_iff in T. simpl in T. lia.
Qed.

(** The first 128 *)
Definition between (a c b : Z) : bool := (a <=? c) && (c <=? b).
Definition ascii_ok : bool :=
  let kt := property_tree in let ut := upcase_tree in let dt := downcase_tree in let nt := digit_tree in
  forallb (fun c =>
    Bool.eqb (is_upper_case (kind_with kt c)) (between 65 c 90) && Bool.eqb (is_lower_case (kind_with kt c)) (between 97 c 122) &&
    Bool.eqb (is_letter (kind_with kt c)) (between 65 c 90 || between 97 c 122) &&
    Bool.eqb (is_numeric (kind_with kt c)) (between 48 c 57) && Bool.eqb (is_whitespace (kind_with kt c)) (c =? 32) &&
    (up_with ut c =? if between 97 c 122 then c - 32 else c) && (up_with dt c =? if between 65 c 90 then c + 32 else c) &&
    match find nt c with Some d => between 48 c 57 && (d =? c - 48) | None => negb (between 48 c 57) end) (upto 128 0).
Lemma ascii_ok_true : ascii_ok = true.
Proof. vm_compute. reflexivity. Qed.
Lemma ascii c : 0 <= c < 128 ->
  char_upper_case c = between 65 c 90 /\ char_lower_case c = between 97 c 122 /\
  char_alphabetic c = (between 65 c 90 || between 97 c 122) /\ char_numeric c = between 48 c 57 /\ char_whitespace c = (c =? 32) /\
  upcase c = (if between 97 c 122 then c - 32 else c) /\ downcase c = (if between 65 c 90 then c + 32 else c) /\
  digit_value c = (if between 48 c 57 then Some (c - 48) else None).
Proof.
  intros H. assert (I : In c (upto 128 0)) by (apply upto_in; lia).
  pose proof ascii_ok_true as T. unfold ascii_ok in T. rewrite forallb_forall in T. specialize (T c I). rewrite !andb_true_iff in T.
  destruct T as [[[[[[[T1 T2] T3] T4] T5] T6] T7] T8].
  unfold char_upper_case, char_lower_case, char_alphabetic, char_numeric, char_whitespace, digit_value.
  rewrite (property_with c), (upcase_with c), (downcase_with c), (digit_fast c).
  apply Bool.eqb_prop in T1, T2, T3, T4, T5. apply Z.eqb_eq in T6, T7.
  split; [exact T1|]. split; [exact T2|]. split; [exact T3|]. split; [exact T4|]. split; [exact T5|].
  split; [exact T6|]. split; [exact T7|]. clear - T8.
  destruct (find digit_tree c) as [d|]; destruct (between 48 c 57); simpl in T8; try discriminate T8; [|reflexivity].
  apply Z.eqb_eq in T8. rewrite T8. reflexivity.
Qed.

(** The characters that do not come back *)
Definition odd_ok : bool :=
  let ut := upcase_tree in let dt := downcase_tree in
  forallb (fun c => negb (up_with dt (up_with ut c) =? up_with dt c)) odd_lower &&
  forallb (fun c => negb (up_with ut (up_with dt c) =? up_with ut c)) odd_upper.
Lemma odd_ok_true : odd_ok = true.
Proof. vm_compute. reflexivity. Qed.
Lemma odd_lower_differ c : In c odd_lower -> downcase (upcase c) <> downcase c.
Proof.
  intros I. pose proof odd_ok_true as T. unfold odd_ok in T. apply andb_true_iff in T. destruct T as [T _].
  rewrite forallb_forall in T. specialize (T c I). rewrite (upcase_with c), (downcase_with c), downcase_with. lia.
Qed.
Lemma odd_upper_differ c : In c odd_upper -> upcase (downcase c) <> upcase c.
Proof.
  intros I. pose proof odd_ok_true as T. unfold odd_ok in T. apply andb_true_iff in T. destruct T as [_ T].
  rewrite forallb_forall in T. specialize (T c I). rewrite (upcase_with c), (downcase_with c), upcase_with. lia.
Qed.
