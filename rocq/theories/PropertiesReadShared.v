(** C116: read-with-shared-structure (read/ss) of SRFI 38 reads texts with labels. *)
From Coq Require Import ZArith List Bool Arith Lia.
From Verif Require Import Lists Labels LabelsSpec LabelsShared ReadShared ReadSharedSpec ReadSharedProofs ReadSharedAlike LabelsOnce ReadSharedOnly.
Import ListNotations.
Local Open Scope nat_scope.

(** A text that describes an object (of any heap h0) is read, to its end and no further, as a
    new object that has exactly the parts the text says: #n# is the object whose text began with
    #n=, at any depth, before or after a dot and in vectors.  Nothing that was on the heap is changed. *)
Theorem C116_read : forall h0 ts v0 h rest, depicts h0 ts v0 -> grounded [] ts ->
  (forall v, In (TAtom v) ts -> atomic h v) -> (forall p n, nth_error h p <> Some (Label n)) ->
  exists v h' f0, (forall fuel, f0 <= fuel -> read_shared fuel h (ts ++ rest) = Done (Object v, h', rest)) /\
    (forall q, q < length h -> nth_error h' q = nth_error h q) /\ depicts h' ts v.
Proof. exact read_shared_ok. Qed.
Print Assumptions C116_read.

(** A text determines the object up to copies of its parts *)
Theorem C116_alike : forall h ts v h' w, depicts h ts v -> depicts h' ts w -> grounded [] ts -> alike h v h' w.
Proof. exact depicted_alike. Qed.
Print Assumptions C116_alike.

(** What write/ss writes, read/ss reads as a copy of the object *)
Theorem C116_write_read : forall h v rest, sound h -> valid h v ->
  exists ts v' h' f0, (forall fuel, f0 <= fuel -> write_shared fuel h v = Done ts /\ read_shared fuel h (ts ++ rest) = Done (Object v', h', rest)) /\
    (forall q, q < length h -> nth_error h' q = nth_error h q) /\ alike h v h' v'.
Proof. exact write_read_shared. Qed.
Print Assumptions C116_write_read.

(** The object read shares nothing but what the text says: if two of its parts are the same pair or
    vector (but not an empty one), so are those parts of any object that the text describes *)
Theorem C116_unshared : forall h0 ts v0 h rest, depicts h0 ts v0 -> grounded [] ts ->
  (forall v, In (TAtom v) ts -> atomic h v) -> (forall p n, nth_error h p <> Some (Label n)) ->
  exists v h' f0, (forall fuel, f0 <= fuel -> read_shared fuel h (ts ++ rest) = Done (Object v, h', rest)) /\
    forall h1 v1, depicts h1 ts v1 -> maps_to h' v h1 v1.
Proof. exact read_unshared. Qed.
Print Assumptions C116_unshared.

(** What write/ss writes, read/ss reads as an object with the same sharing: two parts of the object
    are the same pair or vector (but not an empty one) if and only if they are in the copy *)
Theorem C116_isomorphic : forall h v rest, sound h -> valid h v ->
  exists ts v' h' f0, (forall fuel, f0 <= fuel -> write_shared fuel h v = Done ts /\ read_shared fuel h (ts ++ rest) = Done (Object v', h', rest)) /\
    (forall q, q < length h -> nth_error h' q = nth_error h q) /\ isomorphic h v h' v'.
Proof. exact write_read_isomorphic. Qed.
Print Assumptions C116_isomorphic.

(** A label that is not declared before its use, a label that is declared twice, and a chain of
    labels that ends in one of its own labels are errors *)
Theorem C116_undeclared : forall n h rest fuel, 2 <= fuel -> read_shared fuel h (TUse n :: rest) = Done (Error, h, rest).
Proof. intros n h rest fuel L. do 2 (destruct fuel as [|fuel]; [lia|]). reflexivity. Qed.
Print Assumptions C116_undeclared.
Theorem C116_twice : forall n h rest fuel, 4 <= fuel -> exists h', read_shared fuel h (TDecl n :: TDecl n :: rest) = Done (Error, h', rest).
Proof.
  intros n h rest fuel L. do 4 (destruct fuel as [|fuel]; [lia|]). cbn. rewrite Nat.eqb_refl. cbn. eexists. reflexivity.
Qed.
Print Assumptions C116_twice.
Lemma chain_error ns m rest : In m ns -> NoDup ns -> forall s fuel, (forall n, In n ns -> declared n (parts_alist s) = None) -> length ns < fuel ->
  exists s', read_part fuel (Decls [] (hd (TUse m) (map TDecl ns))) s (tl (map TDecl ns ++ [TUse m]) ++ rest) = Done (Error, s', rest).
Proof.
  intros _. induction ns as [|n ns IH]; intros ND s fuel N L; (destruct fuel as [|fuel]; [cbn in L; lia|]).
  - cbn. eexists. reflexivity.
  - cbn [hd map tl app read_part]. rewrite N by (left; reflexivity). cbn [add_node parts_alist nodes variables].
    inversion ND as [|x l NI ND']; subst.
    set (s0 := Reader (nodes s ++ [Label n]) ((n, length (nodes s)) :: parts_alist s) (variables s)).
    destruct (IH ND' s0 fuel) as (s' & R).
    { intros k I. cbn. destruct (Nat.eqb_spec n k) as [->|]; [contradiction|]. apply N. right. exact I. } { cbn in L. lia. }
    destruct ns as [|k ns]; cbn [map app hd tl] in R |- *; fold s0; rewrite R; cbn; eexists; reflexivity.
Qed.
Theorem C116_chain : forall ns m h rest fuel, In m ns -> NoDup ns -> length ns + 1 < fuel ->
  exists h', read_shared fuel h (map TDecl ns ++ TUse m :: rest) = Done (Error, h', rest).
Proof.
  intros ns m h rest fuel I ND L. destruct ns as [|n ns]; [destruct I|]. destruct fuel as [|fuel]; [lia|]. cbn [map app read_shared].
  assert (L' : length (n :: ns) < fuel) by lia.
  destruct (chain_error (n :: ns) m rest I ND (Reader h [] []) fuel ltac:(intros; reflexivity) L') as (s' & R). cbn [hd map tl] in R.
  change (TDecl n :: map TDecl ns) with (map TDecl (n :: ns)) in R. cbn [map app tl] in R. rewrite <- app_assoc in R. cbn [app] in R.
  change (read_part (S fuel) (Finish (TDecl n)) (Reader h [] []) (map TDecl ns ++ TUse m :: rest)) with
    (read_part fuel (Decls [] (TDecl n)) (Reader h [] []) (map TDecl ns ++ TUse m :: rest)).
  rewrite R. cbn. eexists. reflexivity.
Qed.
Print Assumptions C116_chain.

(** Nothing else is read: what is read has the wording of a datum, with every label declared once and before its use,
    and outside of the chain of labels that the use ends; a closing parenthesis alone or a second datum after a dot is an error *)
Theorem C116_only : forall fuel h ts v h' rest, read_shared fuel h ts = Done (Object v, h', rest) -> exists us E, ts = us ++ rest /\ wording [] [] us E.
Proof. exact read_shared_only. Qed.
Print Assumptions C116_only.
Example C116_ex_only : exists h', read_shared 20 [] [TOpen; TAtom (Imm 1); TDot; TAtom (Imm 2); TAtom (Imm 3); TClose] = Done (Error, h', [TAtom (Imm 3); TClose]).
Proof. eexists. reflexivity. Qed.
(** #(1 . (2)) *)
Example C116_ex_lenient : read_shared 20 [] [TVec; TAtom (Imm 1); TDot; TOpen; TAtom (Imm 2); TClose; TClose] =
  Done (Object (Ptr 2), [Cons (Imm 2) Nil; Cons (Imm 1) (Ptr 0); Vector [Imm 1; Imm 2]], []).
Proof. reflexivity. Qed.

(** ** Examples *)
(** #0=(#0# . #1=#(#0# #1#)) *)
Example C116_ex : read_shared 20 [] [TDecl 0; TOpen; TUse 0; TDot; TDecl 1; TVec; TUse 0; TUse 1; TClose; TClose; TAtom (Imm 7)] =
  Done (Object (Ptr 5), [Label 0; Label 1; Cons (Ptr 1) Nil; Cons (Ptr 0) (Ptr 2); Vector [Ptr 5; Ptr 4]; Cons (Ptr 5) (Ptr 4)], [TAtom (Imm 7)]).
Proof. reflexivity. Qed.
(** It describes an object *)
Example C116_ex_depicts : depicts [Cons (Ptr 0) (Ptr 1); Vector [Ptr 0; Ptr 1]]
  [TDecl 0; TOpen; TUse 0; TDot; TDecl 1; TVec; TUse 0; TUse 1; TClose; TClose] (Ptr 0) /\
  grounded [] [TDecl 0; TOpen; TUse 0; TDot; TDecl 1; TVec; TUse 0; TUse 1; TClose; TClose].
Proof.
  split; [|cbn; intuition].
  exists [(1, 1); (0, 0)]. constructor; [intros q []|discriminate|].
  change [TOpen; TUse 0; TDot; TDecl 1; TVec; TUse 0; TUse 1; TClose; TClose] with (TOpen :: [TUse 0] ++ [TDot; TDecl 1; TVec; TUse 0; TUse 1; TClose; TClose]).
  eapply Shows_pair; [reflexivity|constructor; constructor|].
  change [TDot; TDecl 1; TVec; TUse 0; TUse 1; TClose; TClose] with (TDot :: [TDecl 1; TVec; TUse 0; TUse 1; TClose] ++ [TClose]). constructor.
  constructor; [intros q [|[]]; discriminate|discriminate|].
  change [TVec; TUse 0; TUse 1; TClose] with (TVec :: ([TUse 0] ++ [TUse 1] ++ []) ++ [TClose]). eapply Shows_vector; [reflexivity|].
  eapply All_cons; [constructor; constructor; [discriminate|constructor]|]. eapply All_cons; [constructor; constructor|]. constructor.
Qed.
(** (#0=(1) #0#): read of the interpreter itself leaves a label here (C99) *)
Example C116_ex_shared : read_shared 20 [] [TOpen; TDecl 0; TOpen; TAtom (Imm 1); TClose; TUse 0; TClose] =
  Done (Object (Ptr 3), [Label 0; Cons (Imm 1) Nil; Cons (Ptr 1) Nil; Cons (Ptr 1) (Ptr 2)], []).
Proof. reflexivity. Qed.
(** (#0=(1) #1=#0# . #1#): labels for the same object *)
Example C116_ex_chain : read_shared 20 [] [TOpen; TDecl 0; TOpen; TAtom (Imm 1); TClose; TDecl 1; TUse 0; TDot; TUse 1; TClose] =
  Done (Object (Ptr 4), [Label 0; Cons (Imm 1) Nil; Label 1; Cons (Ptr 1) (Ptr 1); Cons (Ptr 1) (Ptr 3)], []).
Proof. reflexivity. Qed.
(** A ring is written and read back *)
Example C116_ex_write_read :
  write_shared 20 [Cons (Imm 1) (Ptr 1); Cons (Imm 2) (Ptr 1)] (Ptr 0) = Done [TOpen; TAtom (Imm 1); TDot; TDecl 1; TOpen; TAtom (Imm 2); TDot; TUse 1; TClose; TClose] /\
  read_shared 20 [] [TOpen; TAtom (Imm 1); TDot; TDecl 1; TOpen; TAtom (Imm 2); TDot; TUse 1; TClose; TClose] =
    Done (Object (Ptr 2), [Label 1; Cons (Imm 2) (Ptr 1); Cons (Imm 1) (Ptr 1)], []).
Proof. split; reflexivity. Qed.
(** #1=#2=#1# *)
Example C116_ex_error : exists h', read_shared 20 [] [TDecl 1; TDecl 2; TUse 1] = Done (Error, h', []).
Proof. eexists. reflexivity. Qed.
(** Objects that are not alike: a ring and the list (2) *)
Example C116_ex_alike : ~ alike [Cons (Imm 2) (Ptr 0)] (Ptr 0) [Cons (Imm 2) Nil] (Ptr 0).
Proof.
  intros (R & A & H). destruct (A _ _ H) as [(_ & X)|[(p & q & a & d & b & e & [= <-] & [= <-] & [= <- <-] & [= <- <-] & _ & K)|(p & q & vs & ws & [= <-] & _ & X & _)]].
  - destruct (X 0 eq_refl) as [Y _]. exact (Y _ _ eq_refl).
  - destruct (A _ _ K) as [(X & _)|[(p & q & a & d & b & e & _ & X & _)|(p & q & vs & ws & _ & X & _)]]; discriminate X.
  - discriminate X.
Qed.
(** ((1) (1)) and (#1=(1) #1#) are alike, but not isomorphic: a relation of the parts would take the
    same pair to two pairs *)
Example C116_ex_not_isomorphic : ~ isomorphic [Cons (Ptr 1) (Ptr 2); Cons (Imm 1) Nil; Cons (Ptr 1) Nil] (Ptr 0)
  [Cons (Ptr 1) (Ptr 2); Cons (Imm 1) Nil; Cons (Ptr 3) Nil; Cons (Imm 1) Nil] (Ptr 0).
Proof.
  intros (R & A & O & R0).
  assert (P : forall p q a d b e, R (Ptr p) (Ptr q) -> nth_error [Cons (Ptr 1) (Ptr 2); Cons (Imm 1) Nil; Cons (Ptr 1) Nil] p = Some (Cons a d) ->
    nth_error [Cons (Ptr 1) (Ptr 2); Cons (Imm 1) Nil; Cons (Ptr 3) Nil; Cons (Imm 1) Nil] q = Some (Cons b e) -> R a b /\ R d e).
  { intros p q a d b e H N M. destruct (A _ _ H) as [(_ & K)|[(p' & q' & a' & d' & b' & e' & [= <-] & [= <-] & K1 & K2 & K3 & K4)|(p' & q' & vs & ws & [= <-] & [= <-] & K1 & _)]].
    - destruct (K p eq_refl) as (K1 & _). destruct (K1 _ _ N).
    - rewrite N in K1. rewrite M in K2. injection K1 as <- <-. injection K2 as <- <-. split; assumption.
    - rewrite N in K1. discriminate. }
  destruct (P 0 0 _ _ _ _ R0 eq_refl eq_refl) as (R1 & R2). destruct (P 2 2 _ _ _ _ R2 eq_refl eq_refl) as (R3 & _).
  assert (X : Ptr 1 = Ptr 3); [|discriminate]. eapply (proj1 (O 1 1 _ _ (Ptr 1) (Ptr 3) eq_refl eq_refl ltac:(discriminate) ltac:(discriminate) R1 R3)). reflexivity.
Qed.
