(** What is said about reading texts with labels by read/ss (SRFI 38), beyond LabelsSpec.v. *)
From Coq Require Import List.
From Verif Require Import Lists Labels LabelsSpec.
Import ListNotations.

(** A chain of labels #1=#2=... does not end with a use of one of its own labels: #1=#2=#1#
    describes nothing.  [chain] is the chain the text begins in. *)
Fixpoint grounded (chain : list nat) (ts : list token) : Prop :=
  match ts with
  | [] => True
  | TDecl n :: ts => grounded (n :: chain) ts
  | TUse n :: ts => ~ In n chain /\ grounded [] ts
  | _ :: ts => grounded [] ts
  end.

(** Two objects with the same parts, and the same parts of parts, and so on: R relates them *)
Definition alike_by (h h' : store) (R : val -> val -> Prop) : Prop :=
  forall v w, R v w ->
    v = w /\ (forall p, v = Ptr p -> (forall a d, nth_error h p <> Some (Cons a d)) /\ (forall vs, nth_error h p <> Some (Vector vs))) \/
    (exists p q a d b e, v = Ptr p /\ w = Ptr q /\ nth_error h p = Some (Cons a d) /\ nth_error h' q = Some (Cons b e) /\ R a b /\ R d e) \/
    (exists p q vs ws, v = Ptr p /\ w = Ptr q /\ nth_error h p = Some (Vector vs) /\ nth_error h' q = Some (Vector ws) /\ Forall2 R vs ws).
Definition alike (h : store) (v : val) (h' : store) (w : val) : Prop := exists R, alike_by h h' R /\ R v w.
(** Two objects with the same sharing as well: parts of the one are the same pair or vector (but
    not an empty one) if and only if the parts of the other they are related to are the same *)
Definition one_to_one (h : store) (R : val -> val -> Prop) : Prop :=
  forall p p' o o' w w', nth_error h p = Some o -> nth_error h p' = Some o' -> parts o <> [] -> parts o' <> [] -> R (Ptr p) w -> R (Ptr p') w' -> (p = p' <-> w = w').
Definition isomorphic (h : store) (v : val) (h' : store) (w : val) : Prop := exists R, alike_by h h' R /\ one_to_one h R /\ R v w.
(** An object that shares no more than another: what is the same in the first is the same in the second *)
Definition function (h : store) (R : val -> val -> Prop) : Prop :=
  forall p o w w', nth_error h p = Some o -> parts o <> [] -> R (Ptr p) w -> R (Ptr p) w' -> w = w'.
Definition maps_to (h : store) (v : val) (h' : store) (w : val) : Prop := exists R, alike_by h h' R /\ function h R /\ R v w.

(** The texts of data with labels. E are the labels declared so far (and E' those after the text); a use refers to one of B, those before
    the chain of labels it is in. After the dot of a list there is one datum and nothing else. Read/ss also takes a dot in a vector, as in #(1 . (2)). *)
Inductive wording : list nat -> list nat -> list token -> list nat -> Prop :=
| Word_atom B E v : wording B E [TAtom v] E
| Word_use B E n : In n B -> wording B E [TUse n] E
| Word_decl B E n ts E' : ~ In n E -> wording B (n :: E) ts E' -> wording B E (TDecl n :: ts) E'
| Word_list B E ts E' : tail_wording E ts E' -> wording B E (TOpen :: ts) E'
| Word_vector B E ts E' : tail_wording E ts E' -> wording B E (TVec :: ts) E'
with tail_wording : list nat -> list token -> list nat -> Prop :=
| Word_close E : tail_wording E [TClose] E
| Word_dot E ts E' : wording E E ts E' -> tail_wording E (TDot :: ts ++ [TClose]) E'
| Word_more E ts E1 us E2 : wording E E ts E1 -> tail_wording E1 us E2 -> tail_wording E (ts ++ us) E2.
