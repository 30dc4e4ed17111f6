(** * C103: define-record-type *)
From Coq Require Import String ZArith List Bool Arith Lia.
From Verif Require Import SyntaxRules Macros MacrosSpec MacrosProofs RecordMacros RecordMacrosProofs.
From Verif Require Records.
Import ListNotations.
Local Open Scope nat_scope.

(** Whatever variables and records there are, a define-record-type form that defines different names has one expansion.  Running it
    makes a new type with the fields of the form and defines the constructor, the predicate, the accessors and modifiers of
    Records.v (whose histories are C44) of this type and of these fields, and nothing else; a constructor with a field
    that the type does not have is an error. *)
Theorem C103_define_record_type :
  forall (u : nat) (keyword : datum) (type constructor : nat) (ctags : list nat) (predicate : nat) (fields : list field),
  NoDup (defined_names type constructor predicate fields) ->
  exists d, (forall d', expands define_record_type_text u (Pair keyword (record_form type constructor ctags predicate fields)) d' <-> d' = d) /\
    forall g h,
      (incl ctags (map tag fields) -> exists g' h', (forall o, runs (S u) g h d o <-> o = Some (g', h')) /\
         record_type_defined type constructor ctags predicate fields g h g' h') /\
      (~ incl ctags (map tag fields) -> forall o, runs (S u) g h d o <-> o = None).
Proof.
  intros u kw type constructor ctags predicate fields ND. destruct (record_ok u kw type constructor ctags predicate fields ND) as (d & X & R).
  exists d. split; [intros d'; split; [intros Y; exact (expands_det _ _ _ _ _ Y X)|intros ->; exact X]|]. intros g h. destruct (R g h) as [R1 R2]. split; intros I.
  - destruct (R1 I) as (g' & h' & R' & D). exists g', h'. split; [|exact D]. intros o. split; [intros Ro; symmetry; exact (runs_det _ _ _ _ _ R' _ Ro)|intros ->; exact R'].
  - intros o. split; [intros Ro; symmetry; exact (runs_det _ _ _ _ _ (R2 I) _ Ro)|intros ->; exact (R2 I)].
Qed.
Print Assumptions C103_define_record_type.

(** (define-record-type point (make-point x y) point? (x px set-px!) (y py)), then (set-px! (make-point 7 8) 9) *)
Definition point_fields : list field := [Field 1000 1002 (Some 1004); Field 1006 1008 None].
Example C103_example : exists d g h t k i j,
  expands define_record_type_text 3 (Pair (Id (sym "define-record-type")) (record_form 1010 1012 [1000; 1006] 1014 point_fields)) d /\
  runs 4 (fun _ => None) Records.first_store d (Some (g, h)) /\
  g 1010 = Some (Value t) /\ g 1012 = Some (Constructor k) /\ g 1014 = Some (Predicate t) /\
  g 1002 = Some (Accessor t i) /\ g 1004 = Some (Modifier t i) /\ g 1008 = Some (Accessor t j) /\ g 1000 = None /\
  exists h1 p h2, Records.construct h k [Records.Other 7%Z; Records.Other 8%Z] = Some (h1, p) /\ Records.predicate h1 t p = true /\
    Records.access h1 t i p = Some (Records.Other 7%Z) /\ Records.access h1 t j p = Some (Records.Other 8%Z) /\
    Records.modify h1 t i p (Records.Other 9%Z) = Some h2 /\ Records.access h2 t i p = Some (Records.Other 9%Z) /\ Records.access h2 t j p = Some (Records.Other 8%Z).
Proof.
  destruct (C103_define_record_type 3 (Id (sym "define-record-type")) 1010 1012 [1000; 1006] 1014 point_fields) as (d & X & R).
  { apply nodup_b_ok. vm_compute. reflexivity. }
  destruct (R (fun _ => None) Records.first_store) as [R1 _]. destruct R1 as (g & h & Rg & t & k & T & G1 & K & G2 & G3 & F & O); [intros x I; exact I|].
  destruct (F _ (or_introl eq_refl)) as (i & Fi & A1 & M1). destruct (F _ (or_intror (or_introl eq_refl))) as (j & Fj & A2 & M2).
  rewrite make_record_type_ok in T. injection T as <- <-. cbn in K, Fi, Fj. injection K as <-. injection Fi as <-. injection Fj as <-.
  exists d, g. do 5 eexists. split; [now apply X|]. split; [now apply Rg|]. split; [exact G1|]. split; [exact G2|]. split; [exact G3|].
  split; [exact A1|]. split; [apply M1; reflexivity|]. split; [exact A2|].
  split. { apply O. vm_compute. intuition discriminate. }
  do 3 eexists. split; [reflexivity|]. repeat split.
Qed.
(** (define-record-type point (make-point z) point? (x px)) is an error *)
Example C103_example_error : exists d,
  expands define_record_type_text 3 (Pair Nil (record_form 1010 1012 [1016] 1014 [Field 1000 1002 None])) d /\
  runs 4 (fun _ => None) Records.first_store d None.
Proof.
  destruct (C103_define_record_type 3 Nil 1010 1012 [1016] 1014 [Field 1000 1002 None]) as (d & X & R).
  { apply nodup_b_ok. vm_compute. reflexivity. }
  exists d. split; [now apply X|]. apply R; [|reflexivity]. intros I. destruct (I 1016 (or_introl eq_refl)) as [E|[]]. discriminate E.
Qed.
