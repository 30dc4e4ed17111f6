(** Datum labels: C98-C101. *)
From Coq Require Import ZArith List Bool Arith Lia.
From Verif Require Import Lists ListPredicates Labels LabelsSpec LabelsProofs LabelsShared LabelsEvery LabelsRead.
Import ListNotations.

(** ** C98: write *)
(** Full statement: the text describes the object, whatever it is.  Whatever write puts out for
    an object other than a vector describes exactly that object; missing: vectors (refuted below). *)
Theorem C98_text_partial : forall h fuel v ts, (forall p n, nth_error h p <> Some (Label n)) ->
  (forall p vs, v = Ptr p -> nth_error h p <> Some (Vector vs)) ->
  write_datum fuel h v = Done ts -> depicts h ts v.
Proof. exact write_text. Qed.
Print Assumptions C98_text_partial.
(** #1=(7 #2=(1 . #2#) . #1#): two rings *)
Definition two_rings : store := [Cons (Imm 7) (Ptr 1); Cons (Ptr 2) (Ptr 0); Cons (Imm 1) (Ptr 2)].
Example C98_text_ex : write_datum 20 two_rings (Ptr 0) =
  Done [TDecl 1; TOpen; TAtom (Imm 7); TDecl 2; TOpen; TAtom (Imm 1); TDot; TUse 2; TClose; TDot; TUse 1; TClose].
Proof. reflexivity. Qed.
(** A vector of two rings: the table of labels is given up after each element, and label 1 is
    declared twice in one datum *)
Theorem C98_text_refuted : exists h v ts, sound h /\ valid h v /\
  (forall fuel, 10 <= fuel -> write_datum fuel h v = Done ts) /\ ~ depicts h ts v.
Proof.
  exists [Vector [Ptr 1; Ptr 2]; Cons (Imm 1) (Ptr 1); Cons (Imm 2) (Ptr 2)], (Ptr 0).
  exists [TVec; TDecl 1; TOpen; TAtom (Imm 1); TDot; TUse 1; TClose; TDecl 1; TOpen; TAtom (Imm 2); TDot; TUse 1; TClose; TClose].
  split; [apply checked_sound; reflexivity|]. split; [|split].
  - intros p [= <-]. cbn. lia.
  - intros fuel L. do 10 (destruct fuel as [|fuel]; [lia|]). reflexivity.
  - intros H. apply depicts_once in H. cbn in H. inversion H as [|? ? N _]. apply N. left. reflexivity.
Qed.
Print Assumptions C98_text_refuted.

(** Exactly when write ends: every circular list that is met is met at a pair on its own ring,
    and no cycle runs through cars, vectors and finite lists only *)
Theorem C98_ends : forall h v, sound h -> valid h v ->
  ((exists fuel ts, write_datum fuel h v = Done ts) <-> (forall w, reach h v w -> fine h w)).
Proof.
  intros h v S V. split.
  - intros (fuel & ts & H). eapply write_fine. exact H.
  - intros H. destruct (write_ends h v S V H) as (ts & f & K). exists f, ts. apply K. constructor.
Qed.
Print Assumptions C98_ends.
(** More fuel does not change the text *)
Theorem C98_fuel : forall h v, sound h -> valid h v -> (forall w, reach h v w -> fine h w) ->
  exists ts f, forall fuel, f <= fuel -> write_datum fuel h v = Done ts.
Proof. exact write_ends. Qed.
Print Assumptions C98_fuel.
Example C98_ends_ex : forall w, reach two_rings (Ptr 0) w -> fine two_rings w.
Proof. apply (C98_ends two_rings (Ptr 0)); [apply checked_sound; reflexivity | intros p [= <-]; cbn; lia | exists 20; eexists; reflexivity]. Qed.
(** R7RS: write ends for every object.  It does not for (1 2 2 ...), a list that runs into a
    ring, ... *)
Theorem C98_rho_refuted : exists h v, sound h /\ valid h v /\ forall fuel ts, write_datum fuel h v <> Done ts.
Proof.
  exists [Cons (Imm 1) (Ptr 1); Cons (Imm 2) (Ptr 1)], (Ptr 0).
  set (h := [Cons (Imm 1) (Ptr 1); Cons (Imm 2) (Ptr 1)]).
  assert (S : sound h) by (apply checked_sound; reflexivity).
  assert (C : forall n, cdrs h (Ptr 0) (Datatypes.S n) (Ptr 1)).
  { induction n as [|n IH]; [eapply Cdrs_S; [constructor|reflexivity] | eapply Cdrs_S; [exact IH|reflexivity]]. }
  assert (U : forall n w, cdrs h (Ptr 0) (Datatypes.S n) w -> w = Ptr 1).
  { intros n w X. pose proof (C n) as Y. apply chain_cdrs in X, Y. congruence. }
  split; [exact S|]. split; [intros p [= <-]; cbn; lia|]. intros fuel ts H.
  destruct (write_fine h fuel (Ptr 0) ts H (Ptr 0) (Reach_self h (Ptr 0))) as (F & _).
  destruct F as ([|n] & L & X); [|lia|].
  - intros [|n].
    + exists 0, (Imm 1), (Ptr 1). split; [constructor|reflexivity].
    + exists 1, (Imm 2), (Ptr 1). split; [apply C|reflexivity].
  - apply U in X. discriminate.
Qed.
Print Assumptions C98_rho_refuted.
(** ... and not for a pair that is its own car, nor for a vector that contains itself *)
Theorem C98_car_refuted : exists h v w, sound h /\ valid h v /\ valid h w /\
  (forall fuel ts, write_datum fuel h v <> Done ts) /\ (forall fuel ts, write_datum fuel h w <> Done ts).
Proof.
  exists [Cons (Ptr 0) Nil; Vector [Ptr 1]], (Ptr 0), (Ptr 1).
  set (h := [Cons (Ptr 0) Nil; Vector [Ptr 1]]).
  assert (X : forall v, inner h v v -> forall fuel ts, write_datum fuel h v <> Done ts).
  { intros v I fuel ts H. destruct (write_fine h fuel v ts H v (Reach_self h v)) as (_ & A).
    induction A as [v _ IH]. exact (IH v I I H). }
  split; [apply checked_sound; reflexivity|]. split; [intros p [= <-]; cbn; lia|]. split; [intros p [= <-]; cbn; lia|].
  split; apply X; split.
  - eapply Child_car. reflexivity.
  - intros E. destruct (E 1) as (p & a & d & C & _). inversion C as [|? q ? ? C0 Eq]; subst. inversion C0; subst. discriminate Eq.
  - eapply Child_item; [reflexivity|]. left. reflexivity.
  - intros E. destruct (E 0) as (p & a & d & C & Ep). inversion C; subst. discriminate Ep.
Qed.
Print Assumptions C98_car_refuted.

(** ** C99: reading labels *)
(** Full statement: a text with labels is read as the object it describes.  It is if labels are
    not nested and are used only behind a dot and not in vectors: the holes of the
    result are the labelled object itself, nothing that was there before changes and no label is left
    behind.  Missing: uses in cars and vectors, nested labels, uses behind the labelled part
    (refuted below). *)
Theorem C99_read_partial : forall ts f s rest, spells Outside ts f -> atoms_in (heap_of s) f -> labels s = [] ->
  exists v h f0, (forall fuel, f0 <= fuel -> read_datum fuel s (ts ++ rest) = Done (Got v, Port h [], rest)) /\
    (forall q, q < length (heap_of s) -> nth_error h q = nth_error (heap_of s) q) /\ forall y, has_form h y v f.
Proof. exact read_labels. Qed.
Print Assumptions C99_read_partial.
(** #0=(1 #(2) . #0#) *)
Definition ring_text : list token := [TDecl 0; TOpen; TAtom (Imm 1); TVec; TAtom (Imm 2); TClose; TDot; TUse 0; TClose].
Example C99_read_ex : spells Outside ring_text (FLab 0 (FPair (FAtom (Imm 1)) (FPair (FVec [FAtom (Imm 2)]) FHole))) /\
  read_datum 20 (Port [] []) ring_text =
  Done (Got (Ptr 4), Port [Label 0; Cons (Imm 2) Nil; Vector [Imm 2]; Cons (Ptr 2) (Ptr 4); Cons (Imm 1) (Ptr 3)] [], []).
Proof.
  split; [|reflexivity]. apply Spells_lab. apply (Spells_pair _ [TAtom (Imm 1)] [TVec; TAtom (Imm 2); TClose; TDot; TUse 0; TClose]); [constructor|].
  apply (Spells_more _ [TVec; TAtom (Imm 2); TClose] [TDot; TUse 0; TClose]); [|constructor].
  apply (Spells_vec _ [TAtom (Imm 2)]). apply (Spells_each _ [TAtom (Imm 2)] _ []); constructor.
Qed.
(** #0=(#0#): a label in a car stays an object of the reader *)
Theorem C99_car_refuted : exists ts h0 v0 v h a d, depicts h0 ts v0 /\
  (forall fuel, 10 <= fuel -> read_datum fuel (Port [] []) ts = Done (Got (Ptr v), Port h [], [])) /\
  nth_error h v = Some (Cons (Ptr a) d) /\ nth_error h a = Some (Label 0).
Proof.
  exists [TDecl 0; TOpen; TUse 0; TClose], [Cons (Ptr 0) Nil], (Ptr 0), 1, [Label 0; Cons (Ptr 0) Nil], 0, Nil. split; [|split].
  - exists [(0, 0)]. apply Shows_decl; [intros q []|discriminate|].
    apply (Shows_pair _ _ 0 (Ptr 0) Nil [TUse 0] [TClose] [(0, 0)]); [reflexivity| |constructor]. constructor. constructor.
  - intros fuel L. do 10 (destruct fuel as [|fuel]; [lia|]). reflexivity.
  - split; reflexivity.
Qed.
Print Assumptions C99_car_refuted.
(** #0=#(#0#): so does a label in a vector *)
Theorem C99_vector_refuted : exists ts h0 v0 v h a, depicts h0 ts v0 /\
  (forall fuel, 10 <= fuel -> read_datum fuel (Port [] []) ts = Done (Got (Ptr v), Port h [], [])) /\
  nth_error h v = Some (Vector [Ptr a]) /\ nth_error h a = Some (Label 0).
Proof.
  exists [TDecl 0; TVec; TUse 0; TClose], [Vector [Ptr 0]], (Ptr 0), 2, [Label 0; Cons (Ptr 0) Nil; Vector [Ptr 0]], 0. split; [|split].
  - exists [(0, 0)]. apply Shows_decl; [intros q []|discriminate|].
    apply (Shows_vector _ _ 0 [Ptr 0] [TUse 0]); [reflexivity|]. apply (All_cons _ _ [TUse 0] _ [(0, 0)] []); [|constructor]. constructor. constructor.
  - intros fuel L. do 10 (destruct fuel as [|fuel]; [lia|]). reflexivity.
  - split; reflexivity.
Qed.
Print Assumptions C99_vector_refuted.
(** #0=(#1=(1 . #1#) . #0#), the text of two rings: reading never ends *)
Theorem C99_nested_refuted : exists ts h0 v0, depicts h0 ts v0 /\ forall fuel, read_datum fuel (Port [] []) ts = Loop.
Proof.
  exists [TDecl 0; TOpen; TDecl 1; TOpen; TAtom (Imm 1); TDot; TUse 1; TClose; TDot; TUse 0; TClose].
  exists [Cons (Ptr 1) (Ptr 0); Cons (Imm 1) (Ptr 1)], (Ptr 0). split.
  - exists [(1, 1); (0, 0)]. apply Shows_decl; [intros q []|discriminate|].
    apply (Shows_pair _ _ 0 (Ptr 1) (Ptr 0) [TDecl 1; TOpen; TAtom (Imm 1); TDot; TUse 1; TClose] [TDot; TUse 0; TClose] [(1, 1); (0, 0)]); [reflexivity| |].
    + apply Shows_decl; [intros q [[=]|[]]|discriminate|].
      apply (Shows_pair _ _ 1 (Imm 1) (Ptr 1) [TAtom (Imm 1)] [TDot; TUse 1; TClose] [(1, 1); (0, 0)]); [reflexivity|constructor; constructor|].
      apply (Rest_dot _ _ [TUse 1]). constructor. constructor.
    + apply (Rest_dot _ _ [TUse 0]). constructor. apply There; [discriminate|]. constructor.
  - assert (C : forall fuel x, circulate fuel [Label 0; Label 1; Cons (Imm 1) (Ptr 2); Cons (Ptr 2) (Ptr 0)] (Ptr 2) x 0 = Loop).
    { induction fuel as [|fuel IH]; intros x; [reflexivity|]. cbn. destruct fuel as [|fuel]; [reflexivity|]. exact (IH x). }
    intros fuel. do 10 (destruct fuel as [|fuel]; [reflexivity|]). cbn. cbn in C.
    specialize (C (Datatypes.S (Datatypes.S (Datatypes.S (Datatypes.S (Datatypes.S (Datatypes.S (Datatypes.S (Datatypes.S fuel)))))))) (Ptr 3)). cbn in C. rewrite C. reflexivity.
Qed.
Print Assumptions C99_nested_refuted.
(** (#0=(1) #0#): behind the labelled part its label is not known any more *)
Theorem C99_later_refuted : exists ts h0 v0 s, depicts h0 ts v0 /\
  forall fuel, 10 <= fuel -> exists rest, read_datum fuel (Port [] []) ts = Done (Fails, s, rest).
Proof.
  exists [TOpen; TDecl 0; TOpen; TAtom (Imm 1); TClose; TUse 0; TClose], [Cons (Ptr 1) (Ptr 2); Cons (Imm 1) Nil; Cons (Ptr 1) Nil], (Ptr 0).
  exists (Port [Label 0; Cons (Imm 1) Nil] []). split.
  - exists [(0, 1)]. apply (Shows_pair _ _ 0 (Ptr 1) (Ptr 2) [TDecl 0; TOpen; TAtom (Imm 1); TClose] [TUse 0; TClose] [(0, 1)]); [reflexivity| |].
    + apply Shows_decl; [intros q []|discriminate|].
      apply (Shows_pair _ _ 1 (Imm 1) Nil [TAtom (Imm 1)] [TClose] [(0, 1)]); [reflexivity|constructor; constructor|constructor].
    + apply (Rest_pair _ _ 2 (Ptr 1) Nil [TUse 0] [TClose] [(0, 1)]); [reflexivity|constructor; constructor|constructor].
  - intros fuel L. do 10 (destruct fuel as [|fuel]; [lia|]). eexists. reflexivity.
Qed.
Print Assumptions C99_later_refuted.
(** After an error inside of a labelled part the label stays declared on the port: the next text
    that declares it cannot be read there, although it can on a new port *)
Theorem C99_error_refuted : exists bad ts f s, spells Outside ts f /\
  (forall fuel, 10 <= fuel -> exists rest, read_datum fuel (Port [] []) bad = Done (Fails, s, rest)) /\
  (forall fuel, 10 <= fuel -> exists s' rest, read_datum fuel s ts = Done (Fails, s', rest)) /\
  (forall fuel, 10 <= fuel -> exists v s', read_datum fuel (Port [] []) ts = Done (Got v, s', [])).
Proof.
  exists [TDecl 0; TOpen; TUse 1; TClose], [TDecl 0; TOpen; TClose], (FLab 0 FNil), (Port [Label 0] [(0, 0)]). split; [|split; [|split]].
  - constructor. constructor.
  - intros fuel L. do 10 (destruct fuel as [|fuel]; [lia|]). eexists. reflexivity.
  - intros fuel L. do 10 (destruct fuel as [|fuel]; [lia|]). eexists _, _. reflexivity.
  - intros fuel L. do 10 (destruct fuel as [|fuel]; [lia|]). eexists _, _. reflexivity.
Qed.
Print Assumptions C99_error_refuted.

(** ** C100: write-simple *)
(** Full statement: write-simple puts out a text without labels that describes the object, for
    every object of finite size.  It does for objects made of atoms and lists that end with ();
    missing: dotted lists (refuted below) and vectors, which are written as by write. *)
Theorem C100_simple_partial : forall h v, sound h -> valid h v -> finite h v -> all_proper h v ->
  exists ts f, (forall fuel, f <= fuel -> write_simple fuel false h v = Done ts) /\ shows h [] ts v [].
Proof. intros h v S V A P. destruct (simple_ok h v S V P v A (Reach_self h v)) as (H & _). exact H. Qed.
Print Assumptions C100_simple_partial.
Example C100_ex : write_simple 10 false [Cons (Imm 1) (Ptr 1); Cons (Ptr 2) Nil; Cons (Imm 2) Nil] (Ptr 0) =
  Done [TOpen; TAtom (Imm 1); TOpen; TAtom (Imm 2); TClose; TClose].
Proof. reflexivity. Qed.
(** (1 . 2): after the 2 the loop goes on with its cdr, which is undefined *)
Theorem C100_dotted_refuted : exists h v, sound h /\ valid h v /\ finite h v /\
  forall fuel, 5 <= fuel -> write_simple fuel false h v = Ub.
Proof.
  exists [Cons (Imm 1) (Imm 2)], (Ptr 0). split; [apply checked_sound; reflexivity|]. split; [intros p [= <-]; cbn; lia|]. split.
  - assert (L : forall b, finite [Cons (Imm 1) (Imm 2)] (Imm b)) by (intros b; constructor; intros y C; inversion C).
    constructor. intros y C. destruct (child_pair [Cons (Imm 1) (Imm 2)] 0 (Imm 1) (Imm 2) y eq_refl C) as [-> | ->]; apply L.
  - intros fuel L. do 5 (destruct fuel as [|fuel]; [lia|]). reflexivity.
Qed.
Print Assumptions C100_dotted_refuted.
(** (1 . x) with x an object that is not a pair: one parenthesis too many *)
Theorem C100_closing_refuted : exists h v ts, sound h /\ valid h v /\ finite h v /\
  (forall fuel, 5 <= fuel -> write_simple fuel false h v = Done (ts ++ [TClose])) /\ depicts h ts v.
Proof.
  exists [Cons (Imm 1) (Ptr 1); Text 3], (Ptr 0), [TOpen; TAtom (Imm 1); TDot; TAtom (Ptr 1); TClose].
  split; [apply checked_sound; reflexivity|]. split; [intros p [= <-]; cbn; lia|]. split; [|split].
  - constructor. intros y C. destruct (child_pair [Cons (Imm 1) (Ptr 1); Text 3] 0 (Imm 1) (Ptr 1) y eq_refl C) as [-> | ->]; constructor; intros z D; inversion D; subst; discriminate.
  - intros fuel L. do 5 (destruct fuel as [|fuel]; [lia|]). reflexivity.
  - exists []. apply (Shows_pair _ _ 0 (Imm 1) (Ptr 1) [TAtom (Imm 1)] [TDot; TAtom (Ptr 1); TClose] []); [reflexivity|constructor; constructor|].
    apply (Rest_dot _ _ [TAtom (Ptr 1)]). constructor. eapply Atomic_text. reflexivity.
Qed.
Print Assumptions C100_closing_refuted.

(** ** C101: write-shared *)
(** write-shared ends for every object, its text describes the object, and only parts to which
    two references lead get a label *)
Theorem C101_shared : forall h v, sound h -> valid h v ->
  exists ts f, (forall fuel, f <= fuel -> write_shared fuel h v = Done ts) /\
    exists E, shows h [] ts v E /\ forall n p, In (n, p) E -> shared h v (Ptr p).
Proof. exact write_shared_ok. Qed.
Print Assumptions C101_shared.
(** What write cannot deal with: a list that runs into a ring, a pair that is its own car *)
Example C101_ex : write_shared 20 [Cons (Imm 1) (Ptr 1); Cons (Imm 2) (Ptr 1)] (Ptr 0) =
  Done [TOpen; TAtom (Imm 1); TDot; TDecl 1; TOpen; TAtom (Imm 2); TDot; TUse 1; TClose; TClose].
Proof. reflexivity. Qed.
Example C101_ex_car : write_shared 20 [Cons (Ptr 0) (Ptr 1); Cons (Ptr 2) (Ptr 3); Text 2; Vector [Ptr 2]] (Ptr 0) =
  Done [TDecl 1; TOpen; TUse 1; TDecl 2; TAtom (Ptr 2); TDot; TVec; TUse 2; TClose; TClose].
Proof. reflexivity. Qed.
(** Every pair, every vector and every string (but the empty ones) to which two references lead
    gets a label *)
Theorem C101_every : forall h v, sound h -> valid h v ->
  exists ts f, (forall fuel, f <= fuel -> write_shared fuel h v = Done ts) /\
    exists E, shows h [] ts v E /\
      forall p o, nth_error h p = Some o -> (parts o <> [] \/ exists k, o = Text (S k)) -> (shared h v (Ptr p) <-> exists n, In (n, p) E).
Proof.
  intros h v S V. destruct (write_shared_every h v S V) as (ts & f & H & E & Sh & X & Y). exists ts, f. split; [exact H|].
  exists E. split; [exact Sh|]. intros p o Ep K. split.
  - apply Y. cbn. rewrite Ep. destruct K as [K|(k & ->)]; [|reflexivity]. destruct o as [a d|vs|k| |k]; try (destruct K; reflexivity); [reflexivity|].
    destruct vs; [destruct K|]; reflexivity.
  - intros (n & I). exact (X n p I).
Qed.
Print Assumptions C101_every.
(** The empty vector and the empty string are written again for each reference *)
Example C101_ex_empty : write_shared 20 [Cons (Ptr 1) (Ptr 2); Vector []; Cons (Ptr 1) (Ptr 3); Cons (Ptr 4) (Ptr 4); Text 0] (Ptr 0) =
  Done [TOpen; TVec; TClose; TVec; TClose; TAtom (Ptr 4); TDot; TAtom (Ptr 4); TClose].
Proof. reflexivity. Qed.
(** An object without shared parts is written without labels *)
Theorem C101_plain : forall h v, sound h -> valid h v -> (forall w, ~ shared h v w) ->
  exists ts f, (forall fuel, f <= fuel -> write_shared fuel h v = Done ts) /\ shows h [] ts v [].
Proof.
  intros h v S V N. destruct (write_shared_ok h v S V) as (ts & f & H & E & Sh & X). exists ts, f. split; [exact H|].
  destruct E as [|(n & p) E]; [exact Sh|]. destruct (N (Ptr p)). apply (X n p). left. reflexivity.
Qed.
Print Assumptions C101_plain.
