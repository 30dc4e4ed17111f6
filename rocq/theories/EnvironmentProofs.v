(** Import sets against their specification. *)
From Coq Require Import String ZArith List Bool Lia.
From Verif Require Import Number NumberProofs NumberText TextPort TextPortProofs Writer Reader ReaderProofs RoundTrip CondExpand Environment.
Import ListNotations.
Open Scope Z_scope.

(** ** Libraries *)
(** An export of a library: the name inside, the name outside if it differs, and the
    cell *)
Record export := Export { internal : list Z; external : option (list Z); cell_at : nat }.
Definition spec_datum (e : export) : datum :=
  match external e with
  | None => Sym (internal e)
  | Some n => Pair (Sym (codes "rename")) (Pair (Sym (internal e)) (Pair (Sym n) Nil))
  end.
Definition binding_of (e : export) : binding :=
  match external e with
  | None => Bind (internal e) (cell_at e) false
  | Some n => Bind n (cell_at e) true
  end.
(** The library exports exactly [es], all of them defined in it *)
Definition exports_ok (x : library) (h : list cell) (es : list export) : Prop :=
  exports x = list_of (map spec_datum es) /\
  Forall (fun e => assq_global (internal e) (globals x) h = Some (cell_at e)) es.

(** ** Heaps *)
Definition extends (h h' : list cell) : Prop := exists t, h' = h ++ t.
Lemma extends_refl h : extends h h.
Proof. exists []. rewrite app_nil_r. reflexivity. Qed.
Lemma extends_trans h h1 h2 : extends h h1 -> extends h1 h2 -> extends h h2.
Proof. intros [t ->] [u ->]. exists (t ++ u). rewrite app_assoc. reflexivity. Qed.
Lemma extends_cell h c : extends h (h ++ [c]).
Proof. exists [c]. reflexivity. Qed.
Lemma extends_nth h h' a c : extends h h' -> nth_error h a = Some c -> nth_error h' a = Some c.
Proof. intros [t ->] E. rewrite nth_error_app1; [exact E|]. apply nth_error_Some. congruence. Qed.
Lemma extends_length h h' : extends h h' -> (length h <= length h')%nat.
Proof. intros [t ->]. rewrite app_length. lia. Qed.
Lemma assq_extends n second h h' a : extends h h' -> assq_global n second h = Some a -> assq_global n second h' = Some a.
Proof.
  intros E. induction second as [|b second IH]; cbn [assq_global]; [discriminate|].
  destruct (nth_error h b) as [c|] eqn:N; [|discriminate]. rewrite (extends_nth h h' b c E N).
  destruct (same_name (cell_name c) n); auto.
Qed.
Lemma assq_cell n second h a : assq_global n second h = Some a -> exists v, nth_error h a = Some (Cell n v).
Proof.
  induction second as [|b second IH]; cbn [assq_global]; [discriminate|].
  destruct (nth_error h b) as [c|] eqn:N; [|discriminate]. destruct (same_name_spec (cell_name c) n) as [<-|_]; [|exact IH].
  intros E. injection E as <-. destruct c as [m v]. eauto.
Qed.

(** ** What an import set yields *)
(** [h0]: the heap before, [h]: the heap after *)
Definition is_binding (h0 h : list cell) (x : nat) (b : binding) : Prop :=
  exists n v, nth_error h0 (location b) = Some (Cell n v) /\ nth_error h x = Some (Cell (bname b) v) /\
    if changed b then (length h0 <= x)%nat else x = location b.
Lemma is_binding_extends h0 h h' x b : extends h h' -> is_binding h0 h x b -> is_binding h0 h' x b.
Proof. intros E (n & v & L & X & C). exists n, v. split; [exact L|]. split; [exact (extends_nth h h' x _ E X)|exact C]. Qed.
Lemma bindings_extends h0 h h' xs bs : extends h h' -> Forall2 (is_binding h0 h) xs bs -> Forall2 (is_binding h0 h') xs bs.
Proof. intros E. induction 1; constructor; eauto using is_binding_extends. Qed.
Lemma binding_name h0 h x b : is_binding h0 h x b -> named h x = bname b.
Proof. intros (n & v & _ & X & _). unfold named. rewrite X. reflexivity. Qed.

Lemma export_set_ok x es : forall h0 h, extends h0 h ->
  Forall (fun e => assq_global (internal e) (globals x) h0 = Some (cell_at e)) es ->
  exists xs h', export_set (list_of (map spec_datum es)) (globals x) h = Ok (xs, globals x, h') /\
    extends h h' /\ Forall2 (is_binding h0 h') xs (map binding_of es).
Proof.
  induction es as [|e es IH]; intros h0 h E F; [exists [], h; split; [reflexivity|split; [apply extends_refl|constructor]]|].
  inversion F as [|? ? A F']; subst. pose proof (assq_extends _ _ _ h _ E A) as A'. destruct (assq_cell _ _ _ _ A) as [v C].
  cbn [map list_of]. unfold spec_datum at 1, binding_of at 1. destruct (external e) as [n|] eqn:X; cbn [export_set]; unfold identify; rewrite A'.
  - rewrite (extends_nth h0 h _ _ E C). cbn [make_cell cell_value].
    destruct (IH h0 (h ++ [Cell n v])) as (xs & h' & -> & E' & M); [eapply extends_trans; [exact E|apply extends_cell]|exact F'|].
    exists (length h :: xs), h'. split; [reflexivity|]. split; [eapply extends_trans; [apply extends_cell|exact E']|].
    constructor; [|exact M]. exists (internal e), v. split; [exact C|]. split; [|apply (extends_length _ _ E)].
    apply (extends_nth _ _ _ _ E'). rewrite nth_error_app2, Nat.sub_diag by lia. reflexivity.
  - destruct (IH h0 h E F') as (xs & h' & -> & E' & M). exists (cell_at e :: xs), h'. split; [reflexivity|]. split; [exact E'|].
    constructor; [|exact M]. exists (internal e), v. split; [exact C|]. split; [|reflexivity].
    apply (extends_nth _ _ _ _ E'), (extends_nth _ _ _ _ E). exact C.
Qed.

Lemma update_same key x l : find_lib key l = Some x -> update_lib key x l = l.
Proof.
  induction l as [|[k y] l IH]; cbn [find_lib update_lib]; [discriminate|].
  destruct (same_name k key); intros E; [injection E as <-; reflexivity|]. rewrite IH by exact E. reflexivity.
Qed.
Lemma same_name_sym a b : same_name a b = same_name b a.
Proof. destruct (same_name_spec a b), (same_name_spec b a); congruence. Qed.
Lemma memq_symbols n ids : memq n (symbols ids) = existsb (same_name n) ids.
Proof.
  induction ids as [|i ids IH]; [reflexivity|]. unfold symbols. cbn [map list_of memq existsb]. fold (symbols ids).
  rewrite IH, (same_name_sym i n). destruct (same_name n i); reflexivity.
Qed.
Lemma keep_ok h0 h ids wanted xs bs : Forall2 (is_binding h0 h) xs bs ->
  Forall2 (is_binding h0 h) (keep wanted (symbols ids) h xs)
    (filter (fun b => Bool.eqb (existsb (same_name (bname b)) ids) wanted) bs).
Proof.
  induction 1 as [|x b xs bs X F IH]; [constructor|]. unfold keep. cbn [filter]. rewrite (binding_name h0 h x b X), memq_symbols.
  destruct (Bool.eqb _ wanted); [constructor; [exact X|exact IH]|exact IH].
Qed.

(** Names that are written as they are *)
Definition simple (n : list Z) : Prop := n <> [] /\ existsb special n = false.
Lemma simple_written n : simple n -> write_symbol n = Some n.
Proof. intros [N S]. unfold write_symbol. destruct n as [|c n]; [congruence|]. rewrite S. reflexivity. Qed.
Lemma prefix_ok p h0 xs bs : forall h, extends h0 h -> Forall2 (is_binding h0 h) xs bs -> Forall simple (map bname bs) ->
  exists ys h', add_prefix p xs h = Ok (ys, h') /\ extends h h' /\
    Forall2 (is_binding h0 h') ys (map (fun b => Bind (p ++ bname b) (location b) true) bs).
Proof.
  intros h E F. revert h E F. revert bs. induction xs as [|x xs IH]; intros bs h E F; inversion F as [|? b ? bs' X F']; subst; intros S.
  - exists [], h. split; [reflexivity|]. split; [apply extends_refl|constructor].
  - inversion S as [|? ? S1 S2]; subst. destruct X as (n & v & L & X & C). cbn [add_prefix map]. rewrite X. cbn [cell_name cell_value make_cell].
    rewrite (simple_written _ S1).
    destruct (IH bs' (h ++ [Cell (p ++ bname b) v])) as (ys & h' & -> & E' & M);
      [eapply extends_trans; [exact E|apply extends_cell]|eapply bindings_extends; [apply extends_cell|exact F']|exact S2|].
    exists (length h :: ys), h'. split; [reflexivity|]. split; [eapply extends_trans; [apply extends_cell|exact E']|].
    constructor; [|exact M]. exists n, v. cbn [location bname changed]. split; [exact L|]. split; [|apply (extends_length _ _ E)].
    apply (extends_nth _ _ _ _ E'). rewrite nth_error_app2, Nat.sub_diag by lia. reflexivity.
Qed.
Lemma assq_image n rs :
  assq_renaming n (list_of (map (fun '(a, b) => Pair (Sym a) (Pair (Sym b) Nil)) rs)) = Ok (image n rs).
Proof.
  induction rs as [|[a b] rs IH]; [reflexivity|]. cbn [map list_of assq_renaming image]. destruct (same_name a n); [reflexivity|exact IH].
Qed.
Lemma rename_ok rs h0 xs bs : forall h, extends h0 h -> Forall2 (is_binding h0 h) xs bs ->
  exists ys h', rename_all (list_of (map (fun '(a, b) => Pair (Sym a) (Pair (Sym b) Nil)) rs)) xs h = Ok (ys, h') /\ extends h h' /\
    Forall2 (is_binding h0 h') ys (map (fun b => match image (bname b) rs with Some n => Bind n (location b) true | None => b end) bs).
Proof.
  revert bs. induction xs as [|x xs IH]; intros bs h E F; inversion F as [|? b ? bs' X F']; subst.
  - exists [], h. split; [reflexivity|]. split; [apply extends_refl|constructor].
  - pose proof X as (n & v & L & X' & C). cbn [rename_all map]. rewrite X'. cbn [cell_name cell_value]. rewrite assq_image.
    destruct (image (bname b) rs) as [m|]; cbn [make_cell].
    + destruct (IH bs' (h ++ [Cell m v])) as (ys & h' & -> & E' & M);
        [eapply extends_trans; [exact E|apply extends_cell]|eapply bindings_extends; [apply extends_cell|exact F']|].
      exists (length h :: ys), h'. split; [reflexivity|]. split; [eapply extends_trans; [apply extends_cell|exact E']|].
      constructor; [|exact M]. exists n, v. cbn [location bname changed]. split; [exact L|]. split; [|apply (extends_length _ _ E)].
      apply (extends_nth _ _ _ _ E'). rewrite nth_error_app2, Nat.sub_diag by lia. reflexivity.
    + destruct (IH bs' h E F') as (ys & h' & -> & E' & M). exists (x :: ys), h'. split; [reflexivity|]. split; [exact E'|].
      constructor; [|exact M]. eapply is_binding_extends; eassumption.
Qed.

Section Sets.
  Variable inexact_text : nat -> list Z.
  Variable exported : datum -> list binding.
  Notation import_set := (import_set inexact_text).
  Notation denotes := (denotes exported).

  (** The library is defined, its name does not begin with an import keyword, and it
      exports what [exported] says *)
  Definition library_ok (w : world) (d : datum) : Prop :=
    (exists n rest, d = Pair (Sym n) rest /\ ~ In n [codes "only"; codes "except"; codes "prefix"; codes "rename"]) /\
    exists key x es, write inexact_text d = Some key /\ find_lib key (libs w) = Some x /\
      exports_ok x (heap w) es /\ exported d = map binding_of es.
  (** Prefixes and prefixed names are written as they are *)
  Fixpoint set_ok (w : world) (s : iset) : Prop :=
    match s with
    | Whole d => library_ok w d
    | Only s _ | Except s _ | Renamed s _ => set_ok w s
    | Prefixed s p => set_ok w s /\ simple p /\ Forall simple (map bname (denotes s))
    end.

  Theorem import_set_ok s : forall w, set_ok w s ->
    exists xs h, import_set (form_of s) w = Ok (xs, World h (libs w)) /\ extends (heap w) h /\
      Forall2 (is_binding (heap w) h) xs (denotes s).
  Proof.
    induction s as [d|s IH ids|s IH ids|s IH p|s IH rs]; intros w O; cbn [form_of set_ok] in *.
    - destruct O as ((n & rest & -> & N) & key & x & es & W & F & (Ex & Fx) & X).
      destruct (export_set_ok x es (heap w) (heap w) (extends_refl _) Fx) as (xs & h & Es & E & M).
      exists xs, h. split; [|split; [exact E|cbn [Environment.denotes]; rewrite X; exact M]].
      cbn [Environment.import_set]. cbn [In] in N.
      destruct (same_name_spec n (codes "only")); [subst; tauto|]. destruct (same_name_spec n (codes "except")); [subst; tauto|].
      destruct (same_name_spec n (codes "prefix")); [subst; tauto|]. destruct (same_name_spec n (codes "rename")); [subst; tauto|].
      unfold library_set. rewrite W, F, Ex, Es. destruct x as [ex gl]. cbn [exports globals] in *. rewrite <- Ex.
      rewrite (update_same key _ _ F). reflexivity.
    - destruct (IH w O) as (xs & h & E & X & M). exists (keep true (symbols ids) h xs), h.
      change (import_set (Pair (Sym (codes "only")) (Pair (form_of s) (symbols ids))) w) with
        (match import_set (form_of s) w with Ok (xs, w) => Ok (keep true (symbols ids) (heap w) xs, w) | bad => bad end).
      rewrite E. split; [reflexivity|]. split; [exact X|]. pose proof (keep_ok _ _ ids true _ _ M) as K. cbn [Environment.denotes].
      erewrite filter_ext; [exact K|]. intros b. cbv beta. destruct (existsb (same_name (bname b)) ids); reflexivity.
    - destruct (IH w O) as (xs & h & E & X & M). exists (keep false (symbols ids) h xs), h.
      change (import_set (Pair (Sym (codes "except")) (Pair (form_of s) (symbols ids))) w) with
        (match import_set (form_of s) w with Ok (xs, w) => Ok (keep false (symbols ids) (heap w) xs, w) | bad => bad end).
      rewrite E. split; [reflexivity|]. split; [exact X|]. pose proof (keep_ok _ _ ids false _ _ M) as K. cbn [Environment.denotes].
      erewrite filter_ext; [exact K|]. intros b. cbv beta. destruct (existsb (same_name (bname b)) ids); reflexivity.
    - destruct O as (O & Sp & Sn). destruct (IH w O) as (xs & h & E & X & M).
      destruct (prefix_ok p (heap w) xs _ h X M Sn) as (ys & h' & A & X' & M'). exists ys, h'.
      change (import_set (Pair (Sym (codes "prefix")) (Pair (form_of s) (Pair (Sym p) Nil))) w) with
        (match import_set (form_of s) w with
         | Ok (xs, w) => match write_symbol p with
                         | Some p => match add_prefix p xs (heap w) with
                                     | Ok (ys, h) => Ok (ys, World h (libs w))
                                     | Raise => Raise
                                     | Crash => Crash
                                     end
                         | None => Crash
                         end
         | bad => bad
         end).
      rewrite E, (simple_written p Sp). cbn [heap libs]. rewrite A. split; [reflexivity|]. split; [eapply extends_trans; eassumption|exact M'].
    - destruct (IH w O) as (xs & h & E & X & M). destruct (rename_ok rs (heap w) xs _ h X M) as (ys & h' & A & X' & M'). exists ys, h'.
      match goal with |- import_set (Pair _ (Pair _ ?r)) w = _ /\ _ => change (import_set (Pair (Sym (codes "rename")) (Pair (form_of s) r)) w) with
        (match import_set (form_of s) w with
         | Ok (xs, w) => match rename_all r xs (heap w) with
                         | Ok (ys, h) => Ok (ys, World h (libs w))
                         | Raise => Raise
                         | Crash => Crash
                         end
         | bad => bad
         end) end.
      rewrite E. cbn [heap libs]. rewrite A. split; [reflexivity|]. split; [eapply extends_trans; eassumption|exact M'].
  Qed.

  (** ** Importing into an environment *)
  Lemma interaction_all xs : forall second h, import_all true xs second h = Ok (rev xs ++ second).
  Proof.
    induction xs as [|x xs IH]; intros second h; [reflexivity|]. cbn [import_all rev]. rewrite <- app_assoc. cbn [app].
    destruct (assq_global _ second h); apply IH.
  Qed.
  Definition names_of (h : list cell) (xs : list nat) : list (list Z) := map (named h) xs.
  Lemma assq_app_left n xs ys h a : assq_global n xs h = Some a -> assq_global n (xs ++ ys) h = Some a.
  Proof.
    induction xs as [|b xs IH]; cbn [assq_global app]; [discriminate|]. destruct (nth_error h b); [|discriminate].
    destruct (same_name (cell_name c) n); auto.
  Qed.
  Lemma assq_app_right n xs ys h : Forall (fun x => nth_error h x <> None) xs -> ~ In n (names_of h xs) ->
    assq_global n (xs ++ ys) h = assq_global n ys h.
  Proof.
    induction 1 as [|b xs V F IH]; intros N; [reflexivity|]. cbn [assq_global app names_of map In] in *. unfold named in N at 1.
    destruct (nth_error h b) as [c|]; [|congruence]. destruct (same_name_spec (cell_name c) n) as [E|_]; [exfalso; apply N; left; exact E|]. apply IH. intros I. apply N. right. exact I.
  Qed.
  Lemma assq_unique n xs h x : Forall (fun x => nth_error h x <> None) xs -> NoDup (names_of h xs) -> In x xs -> named h x = n ->
    assq_global n xs h = Some x.
  Proof.
    induction 1 as [|b xs V F IH]; intros ND I E; [destruct I|]. cbn [assq_global names_of map] in *. inversion ND as [|? ? N ND']; subst.
    destruct (nth_error h b) as [c|] eqn:B; [|congruence]. assert (Nb : named h b = cell_name c) by (unfold named; rewrite B; reflexivity).
    destruct I as [->|I].
    - rewrite Nb. destruct (same_name_spec (cell_name c) (cell_name c)); [reflexivity|congruence].
    - destruct (same_name_spec (cell_name c) (named h x)) as [E|_]; [|auto]. exfalso. apply N. rewrite Nb, E. apply (in_map (named h)). exact I.
  Qed.
  Lemma fresh_all xs : forall second h, Forall (fun x => nth_error h x <> None) xs -> NoDup (names_of h xs) ->
    (forall n, In n (names_of h xs) -> assq_global n second h = None) -> import_all false xs second h = Ok (rev xs ++ second).
  Proof.
    induction xs as [|x xs IH]; intros second h V ND A; [reflexivity|]. inversion V as [|? ? Vx V']; subst. inversion ND as [|? ? N ND']; subst.
    cbn [import_all rev]. rewrite A by (left; reflexivity). rewrite <- app_assoc. cbn [app]. apply IH; [exact V'|exact ND'|].
    intros n I. cbn [assq_global]. destruct (nth_error h x) as [c|] eqn:E; [|congruence].
    destruct (same_name_spec (cell_name c) n) as [<-|_]; [|apply A; right; exact I].
    exfalso. apply N. unfold names_of in I. replace (named h x) with (cell_name c) by (unfold named; rewrite E; reflexivity). exact I.
  Qed.
  Lemma again_all xs : forall second h, (forall x, In x xs -> assq_global (named h x) second h = Some x) -> import_all false xs second h = Ok second.
  Proof.
    induction xs as [|x xs IH]; intros second h A; [reflexivity|]. cbn [import_all]. rewrite (A x) by (left; reflexivity).
    rewrite Nat.eqb_refl. apply IH. intros y I. apply A. right. exact I.
  Qed.

  Lemma bindings_names h0 h xs bs : Forall2 (is_binding h0 h) xs bs -> names_of h xs = map bname bs.
  Proof. induction 1 as [|x b xs bs X F IH]; [reflexivity|]. cbn [names_of map]. rewrite (binding_name _ _ _ _ X). f_equal. exact IH. Qed.
  Lemma bindings_valid h0 h xs bs : Forall2 (is_binding h0 h) xs bs -> Forall (fun x => nth_error h x <> None) xs.
  Proof. induction 1 as [|x b xs bs (n & v & _ & X & _) F IH]; constructor; [congruence|exact IH]. Qed.
  Lemma forall2_in {A B} (R : A -> B -> Prop) xs ys y : Forall2 R xs ys -> In y ys -> exists x, In x xs /\ R x y.
  Proof.
    induction 1 as [|a b xs ys Rab F IH]; [intros []|]. intros [->|I]; [exists a; split; [left; reflexivity|exact Rab]|].
    destruct (IH I) as (x & Ix & Rx). exists x. split; [right; exact Ix|exact Rx].
  Qed.
  Lemma rev_names h xs : names_of h (rev xs) = rev (names_of h xs).
  Proof. apply map_rev. Qed.

  Theorem import_ok interaction s second w :
    set_ok w s -> NoDup (map bname (denotes s)) -> Forall (fun a => nth_error (heap w) a <> None) second ->
    (interaction = false -> forall b, In b (denotes s) -> assq_global (bname b) second (heap w) = None) ->
    exists second' w', import inexact_text interaction (form_of s) second w = Ok (second', w') /\ extends (heap w) (heap w') /\
      (forall b, In b (denotes s) -> exists x, assq_global (bname b) second' (heap w') = Some x /\ is_binding (heap w) (heap w') x b) /\
      (forall n, ~ In n (map bname (denotes s)) -> assq_global n second' (heap w') = assq_global n second (heap w)).
  Proof.
    intros O ND V Fr. destruct (import_set_ok s w O) as (xs & h & E & X & M). pose proof (bindings_names _ _ _ _ M) as Nm. pose proof (bindings_valid _ _ _ _ M) as Vx.
    assert (St : forall n, assq_global n second h = assq_global n second (heap w)).
    { intros n. clear -V X. induction V as [|a second Va V IH]; [reflexivity|]. cbn [assq_global].
      destruct (nth_error (heap w) a) as [c|] eqn:N; [|congruence]. rewrite (extends_nth _ _ _ _ X N). rewrite IH. reflexivity. }
    exists (rev xs ++ second), (World h (libs w)). unfold import. rewrite E. cbn [heap].
    assert (import_all interaction xs second h = Ok (rev xs ++ second)) as ->.
    { destruct interaction; [apply interaction_all|]. apply fresh_all; [exact Vx|rewrite Nm; exact ND|].
      intros n I. rewrite Nm in I. apply in_map_iff in I. destruct I as (b & <- & I). rewrite St. apply Fr; [reflexivity|exact I]. }
    split; [reflexivity|]. split; [exact X|]. split.
    - intros b I. destruct (forall2_in _ _ _ _ M I) as (x & Ix & Rx). exists x. split; [|exact Rx].
      apply assq_app_left. apply assq_unique.
      + apply Forall_rev. exact Vx.
      + rewrite rev_names, Nm. apply NoDup_rev. exact ND.
      + apply in_rev in Ix. exact Ix.
      + apply (binding_name _ _ _ _ Rx).
    - intros n N. rewrite assq_app_right; [apply St|apply Forall_rev; exact Vx|].
      rewrite rev_names, Nm. intros I. apply N. apply in_rev. exact I.
  Qed.
  (** Importing once more what was not renamed changes nothing *)
  Theorem import_again s second w : set_ok w s -> Forall (fun b => changed b = false) (denotes s) ->
    (forall b, In b (denotes s) -> assq_global (bname b) second (heap w) = Some (location b)) ->
    exists w', import inexact_text false (form_of s) second w = Ok (second, w').
  Proof.
    intros O U A. destruct (import_set_ok s w O) as (xs & h & E & X & M). exists (World h (libs w)). unfold import. rewrite E. cbn [heap].
    rewrite again_all; [reflexivity|]. intros x I.
    assert (B : exists b, In b (denotes s) /\ is_binding (heap w) h x b).
    { clear -I M. induction M as [|y b xs bs R M IH]; [destruct I|]. destruct I as [->|I]; [exists b; split; [left; reflexivity|exact R]|].
      destruct (IH I) as (b' & I' & R'). exists b'. split; [right; exact I'|exact R']. }
    destruct B as (b & Ib & R). rewrite (binding_name _ _ _ _ R). pose proof (assq_extends _ _ _ h _ X (A b Ib)) as K. rewrite K.
    rewrite Forall_forall in U. destruct R as (n & v & _ & _ & C). rewrite (U b Ib) in C. congruence.
  Qed.
End Sets.
