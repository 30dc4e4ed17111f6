(** What texts with datum labels mean (R7RS 2.4): a text shows an object of the heap if the
    object has exactly the parts the text says, where #n# stands for the object whose text
    began with #n=.  Independent of the procedures modelled in Labels.v. *)
From Coq Require Import List Arith.
From Verif Require Import Lists Labels.
Import ListNotations.

(** Which object a label stands for: labels come into scope from left to right *)
Definition scope := list (nat * nat).
Inductive stands (n p : nat) : scope -> Prop :=
| Here : forall E, stands n p ((n, p) :: E)
| There : forall m q E, m <> n -> stands n p E -> stands n p ((m, q) :: E).
Definition fresh (n : nat) (E : scope) : Prop := forall q, ~ In (n, q) E.

(** Objects that have no parts *)
Inductive atomic (h : store) : val -> Prop :=
| Atomic_imm : forall b, atomic h (Imm b)
| Atomic_text : forall p n, nth_error h p = Some (Text n) -> atomic h (Ptr p)
| Atomic_other : forall p, nth_error h p = Some Other -> atomic h (Ptr p).

Inductive shows (h : store) : scope -> list token -> val -> scope -> Prop :=
| Shows_atom : forall E v, atomic h v -> shows h E [TAtom v] v E
| Shows_nil : forall E, shows h E [TOpen; TClose] Nil E
| Shows_use : forall E n p, stands n p E -> shows h E [TUse n] (Ptr p) E
| Shows_decl : forall E n p ts E', fresh n E -> ts <> [TUse n] -> shows h ((n, p) :: E) ts (Ptr p) E' ->
    shows h E (TDecl n :: ts) (Ptr p) E'
| Shows_pair : forall E p a d ts us E1 E2, nth_error h p = Some (Cons a d) ->
    shows h E ts a E1 -> shows_rest h E1 us d E2 -> shows h E (TOpen :: ts ++ us) (Ptr p) E2
| Shows_vector : forall E p vs ts E', nth_error h p = Some (Vector vs) ->
    shows_all h E ts vs E' -> shows h E (TVec :: ts ++ [TClose]) (Ptr p) E'
with shows_rest (h : store) : scope -> list token -> val -> scope -> Prop :=
| Rest_nil : forall E, shows_rest h E [TClose] Nil E
| Rest_dot : forall E ts v E', shows h E ts v E' -> shows_rest h E (TDot :: ts ++ [TClose]) v E'
| Rest_pair : forall E p a d ts us E1 E2, nth_error h p = Some (Cons a d) ->
    shows h E ts a E1 -> shows_rest h E1 us d E2 -> shows_rest h E (ts ++ us) (Ptr p) E2
with shows_all (h : store) : scope -> list token -> list val -> scope -> Prop :=
| All_nil : forall E, shows_all h E [] [] E
| All_cons : forall E ts v E1 us vs E2, shows h E ts v E1 -> shows_all h E1 us vs E2 ->
    shows_all h E (ts ++ us) (v :: vs) E2.

(** A text by itself: no label is in scope before it *)
Definition depicts (h : store) (ts : list token) (v : val) : Prop := exists E, shows h [] ts v E.

(** ** Shapes of data *)
(** One part of an object *)
Inductive child (h : store) : val -> val -> Prop :=
| Child_car : forall p a d, nth_error h p = Some (Cons a d) -> child h (Ptr p) a
| Child_cdr : forall p a d, nth_error h p = Some (Cons a d) -> child h (Ptr p) d
| Child_item : forall p vs v, nth_error h p = Some (Vector vs) -> In v vs -> child h (Ptr p) v.
Inductive reach (h : store) (v : val) : val -> Prop :=
| Reach_self : reach h v v
| Reach_step : forall w x, reach h v w -> child h w x -> reach h v x.
(** Taking cdrs *)
Inductive cdrs (h : store) (v : val) : nat -> val -> Prop :=
| Cdrs_0 : cdrs h v 0 v
| Cdrs_S : forall n p a d, cdrs h v n (Ptr p) -> nth_error h p = Some (Cons a d) -> cdrs h v (S n) d.
(** A circular list: cdr can be taken for ever *)
Definition endless (h : store) (v : val) : Prop := forall n, exists p a d, cdrs h v n (Ptr p) /\ nth_error h p = Some (Cons a d).
(** A pair that is on the ring it begins: taking cdrs leads back to it *)
Definition on_ring (h : store) (v : val) : Prop := exists n, 0 < n /\ cdrs h v n v.
(** A part of an object along which write goes on without a label: of anything but a circular list *)
Definition inner (h : store) (w v : val) : Prop := child h v w /\ ~ endless h v.
(** What write can deal with: a circular list is met on its ring, and no cycle avoids
    circular lists *)
Definition fine (h : store) (v : val) : Prop := (endless h v -> on_ring h v) /\ Acc (inner h) v.
(** Objects that exist; heaps that refer to existing objects only and have no label of the
    reader left in them *)
Definition valid (h : store) (v : val) : Prop := forall p, v = Ptr p -> p < length h.
Definition sound (h : store) : Prop :=
  (forall p n, nth_error h p <> Some (Label n)) /\ (forall v w, child h v w -> valid h w).
(** ** Sharing *)
Definition parts (o : node) : list val := match o with Cons a d => [a; d] | Vector vs => vs | _ => [] end.
(** The references to w among the parts of v, and v itself *)
Definition refers (h : store) (v : val) (r : option (nat * nat)) (w : val) : Prop :=
  match r with
  | None => w = v
  | Some (p, i) => reach h v (Ptr p) /\ exists o, nth_error h p = Some o /\ nth_error (parts o) i = Some w
  end.
Definition shared (h : store) (v w : val) : Prop := exists r s, r <> s /\ refers h v r w /\ refers h v s w.
(** ** Texts for reading *)
(** What a text says; Hole stands for the object whose label is in scope *)
Inductive form := FAtom (v : val) | FNil | FPair (a d : form) | FVec (fs : list form) | FHole | FLab (n : nat) (f : form).
(** Where a part of a text stands: outside of all labels, inside of the part that has the
    label n, or inside of a vector in it *)
Inductive place := Outside | Inside (n : nat) | Shut.
Definition within (k : place) : place := match k with Outside => Outside | _ => Shut end.
(** The texts of a form: labels are not nested, and #n# comes only after a dot, not in vectors *)
Inductive spells : place -> list token -> form -> Prop :=
| Spells_atom : forall k v, spells k [TAtom v] (FAtom v)
| Spells_nil : forall k, spells k [TOpen; TClose] FNil
| Spells_pair : forall k ts us a d, spells k ts a -> spells_rest k us d -> spells k (TOpen :: ts ++ us) (FPair a d)
| Spells_vec : forall k ts fs, spells_all (within k) ts fs -> spells k (TVec :: ts ++ [TClose]) (FVec fs)
| Spells_lab : forall n ts f, spells (Inside n) ts f -> spells Outside (TDecl n :: ts) (FLab n f)
with spells_rest : place -> list token -> form -> Prop :=
| Spells_close : forall k, spells_rest k [TClose] FNil
| Spells_dot : forall k ts f, spells k ts f -> spells_rest k (TDot :: ts ++ [TClose]) f
| Spells_hole : forall n, spells_rest (Inside n) [TDot; TUse n; TClose] FHole
| Spells_more : forall k ts us a d, spells k ts a -> spells_rest k us d -> spells_rest k (ts ++ us) (FPair a d)
with spells_all : place -> list token -> list form -> Prop :=
| Spells_none : forall k, spells_all k [] []
| Spells_each : forall k ts f us fs, spells k ts f -> spells_all k us fs -> spells_all k (ts ++ us) (f :: fs).
(** The atoms of a form are atoms of the heap *)
Inductive atoms_in (h : store) : form -> Prop :=
| In_atom : forall v, atomic h v -> atoms_in h (FAtom v)
| In_nil : atoms_in h FNil
| In_pair : forall a d, atoms_in h a -> atoms_in h d -> atoms_in h (FPair a d)
| In_vec : forall fs, (forall f, In f fs -> atoms_in h f) -> atoms_in h (FVec fs)
| In_hole : atoms_in h FHole
| In_lab : forall n f, atoms_in h f -> atoms_in h (FLab n f).
(** An object has a form, with the given object in the holes *)
Inductive has_form (h : store) : val -> val -> form -> Prop :=
| Has_atom : forall x v, has_form h x v (FAtom v)
| Has_nil : forall x, has_form h x Nil FNil
| Has_pair : forall x p a d fa fd, nth_error h p = Some (Cons a d) -> has_form h x a fa -> has_form h x d fd -> has_form h x (Ptr p) (FPair fa fd)
| Has_vec : forall x p vs fs, nth_error h p = Some (Vector vs) -> have_forms h x vs fs -> has_form h x (Ptr p) (FVec fs)
| Has_hole : forall x, has_form h x x FHole
| Has_lab : forall x v n f, has_form h v v f -> has_form h x v (FLab n f)
with have_forms (h : store) : val -> list val -> list form -> Prop :=
| Have_none : forall x, have_forms h x [] []
| Have_each : forall x v f vs fs, has_form h x v f -> have_forms h x vs fs -> have_forms h x (v :: vs) (f :: fs).
(** Data of finite size made of atoms and lists that end with () *)
Definition finite (h : store) (v : val) : Prop := Acc (fun w u => child h u w) v.
Definition all_proper (h : store) (v : val) : Prop :=
  forall p, reach h v (Ptr p) ->
    (forall vs, nth_error h p <> Some (Vector vs)) /\
    (forall a d, nth_error h p = Some (Cons a d) -> d = Nil \/ exists q a' d', d = Ptr q /\ nth_error h q = Some (Cons a' d')).
