(** What SRFI 1 asks of its procedures: on lists of Gallina, with the calls they make of their procedure
    arguments in order. *)
From Coq Require Import ZArith List Bool PeanoNat.
From Verif Require Import Lists ListsProofs Srfi1.
Import ListNotations.

Section Spec.
Context {W : Type}.
(** what a procedure argument does to the world; None: it does not return *)
Definition behaviour : Type := list val -> W -> option (val * W).
(** a procedure argument which, as long as the heap h0 is only extended, behaves as g and leaves the heap alone *)
Definition steady (h0 : heap) (f : proc (W := W)) (g : behaviour) : Prop :=
  forall h args w, ext h0 h -> f args h w = match g args w with Some (r, w') => Ret r h w' | None => Stop end.
(** g is called with the argument lists argss, one after the other, and gives the values rs *)
Inductive calls (g : behaviour) : W -> list (list val) -> list val -> W -> Prop :=
| calls_none w : calls g w [] [] w
| calls_one w args r w1 argss rs w' : g args w = Some (r, w1) -> calls g w1 argss rs w' -> calls g w (args :: argss) (r :: rs) w'.
(** every element alone *)
Definition each (xs : list val) : list (list val) := map (fun x => [x]) xs.

(** a proper list with the elements xs *)
Definition plist (h : heap) (v : val) (xs : list val) : Prop := exists ps, seg h v ps xs Nil.
(** m ends with the value r and the heap h', and nothing that existed has changed *)
Definition yields {A} (m : out (W := W) A) (h : heap) (w' : W) (P : A -> heap -> Prop) : Prop :=
  exists r h', m = Ret r h' w' /\ ext h h' /\ P r h'.

(** the elements whose answer is true, and the others *)
Fixpoint keep {A} (xs : list A) (bs : list val) : list A :=
  match xs, bs with x :: xs, b :: bs => if truth b then x :: keep xs bs else keep xs bs | _, _ => [] end.
Fixpoint drop_kept {A} (xs : list A) (bs : list val) : list A :=
  match xs, bs with x :: xs, b :: bs => if truth b then drop_kept xs bs else x :: drop_kept xs bs | _, _ => [] end.
(** row i has the element i of each list; there are as many rows as the shortest list has elements *)
Fixpoint shortest (xss : list (list val)) : nat :=
  match xss with [] => 0 | [xs] => length xs | xs :: xss => Nat.min (length xs) (shortest xss) end.
Definition rows (xss : list (list val)) : list (list val) := map (fun i => map (fun xs => nth i xs Nil) xss) (seq 0 (shortest xss)).
(** kons over the rows, from the first *)
Inductive folds (g : behaviour) : W -> list (list val) -> val -> val -> W -> Prop :=
| folds_none w z : folds g w [] z z w
| folds_one w args argss z z1 w1 r w' : g (args ++ [z]) w = Some (z1, w1) -> folds g w1 argss z1 r w' -> folds g w (args :: argss) z r w'.
(** from the last *)
Inductive folds_right (g : behaviour) : W -> list (list val) -> val -> val -> W -> Prop :=
| folds_right_none w z : folds_right g w [] z z w
| folds_right_one w args argss z z1 w1 r w' : folds_right g w argss z z1 w1 -> g (args ++ [z1]) w1 = Some (r, w') -> folds_right g w (args :: argss) z r w'.
(** the first row with a true answer: the rows before are asked, and it; [found] has its place and the answer *)
Inductive search (g : behaviour) : W -> list (list val) -> option (nat * val) -> W -> Prop :=
| search_none w : search g w [] None w
| search_here w args argss r w' : g args w = Some (r, w') -> truth r = true -> search g w (args :: argss) (Some (0, r)) w'
| search_there w args argss r w1 n a w' : g args w = Some (r, w1) -> truth r = false -> search g w1 argss (Some (n, a)) w' -> search g w (args :: argss) (Some (S n, a)) w'
| search_nowhere w args argss r w1 w' : g args w = Some (r, w1) -> truth r = false -> search g w1 argss None w' -> search g w (args :: argss) None w'.
(** the first row with a false answer, or the last answer *)
Inductive all_true (g : behaviour) : W -> list (list val) -> val -> val -> W -> Prop :=
| all_none w z : all_true g w [] z z w
| all_false w args argss z r w' : g args w = Some (r, w') -> truth r = false -> all_true g w (args :: argss) z v_false w'
| all_more w args argss z r w1 a w' : g args w = Some (r, w1) -> truth r = true -> all_true g w1 argss r a w' -> all_true g w (args :: argss) z a w'.
(** p, f, g and e of unfold, from the seed s: the elements and the tail *)
Inductive unfolds (p f g e : behaviour) : W -> val -> list val -> val -> W -> Prop :=
| unfolds_end w s r w1 z w' : p [s] w = Some (r, w1) -> truth r = true -> e [s] w1 = Some (z, w') -> unfolds p f g e w s [] z w'
| unfolds_more w s r w1 s' w2 a xs z w3 w' : p [s] w = Some (r, w1) -> truth r = false -> g [s] w1 = Some (s', w2) -> unfolds p f g e w2 s' xs z w3 ->
    f [s] w3 = Some (a, w') -> unfolds p f g e w s (a :: xs) z w'.
(** of unfold-right: the elements, the last first *)
Inductive unfolds_right (p f g : behaviour) : W -> val -> list val -> W -> Prop :=
| unfolds_right_end w s r w' : p [s] w = Some (r, w') -> truth r = true -> unfolds_right p f g w s [] w'
| unfolds_right_more w s r w1 a w2 s' w3 xs w' : p [s] w = Some (r, w1) -> truth r = false -> f [s] w1 = Some (a, w2) -> g [s] w2 = Some (s', w3) ->
    unfolds_right p f g w3 s' xs w' -> unfolds_right p f g w s (a :: xs) w'.
(** the opposite answer *)
Definition opposite (g : behaviour) : behaviour := fun args w => match g args w with Some (r, w') => Some (bool_val (negb (truth r)), w') | None => None end.
(** the elements before the first one found *)
Definition place {A} (o : option (nat * val)) (xs : list A) : nat := match o with Some (n, _) => n | None => length xs end.
(** x compared with each of ys *)
Definition against (x : val) (ys : list val) : list (list val) := map (fun y => [x; y]) ys.
(** the elements of delete-duplicates *)
Inductive dedup (g : behaviour) : W -> list val -> list val -> W -> Prop :=
| dedup_none w : dedup g w [] [] w
| dedup_one w x xs bs w1 ys w' : calls g w (against x xs) bs w1 -> dedup g w1 (drop_kept xs bs) ys w' -> dedup g w (x :: xs) (x :: ys) w'.
(** nothing that existed has changed, except the cars of ps *)
Definition recarred (h h' : heap) (ps : list nat) : Prop :=
  length h' = length h /\ forall q o, nth_error h q = Some o -> exists o', nth_error h' q = Some o' /\
    pairp o' = pairp o /\ second o' = second o /\ (~ In q ps -> first o' = first o).
(** an association list with the keys ks *)
Definition keyed (h : heap) (e k : val) : Prop := exists q d, e = Ptr q /\ nth_error h q = Some (Obj true k d).
(** a procedure that leaves the heap alone and behaves as g whatever the heap is *)
Definition independent (f : proc (W := W)) (g : behaviour) : Prop := forall h0, steady h0 f g.
(** a predicate of two arguments that has no effect, as long as the heap h is only extended *)
Definition decides (h : heap) (f : proc (W := W)) (R : val -> val -> bool) : Prop :=
  steady h f (fun args w => match args with [x; y] => Some (bool_val (R x y), w) | _ => None end).
End Spec.
(** how many answers are true *)
Fixpoint trues (bs : list val) : nat := match bs with [] => 0 | b :: bs => (if truth b then 1 else 0) + trues bs end.
(** a list of at least two elements, the first two of which are ab *)
Definition two (h : heap) (e : val) (ab : val * val) : Prop := exists q q' d d', e = Ptr q /\ nth_error h q = Some (Obj true (fst ab) d) /\ d = Ptr q' /\ nth_error h q' = Some (Obj true (snd ab) d').
(** a proper list with the pairs ps *)
Definition cells (h : heap) (v : val) (ps : list nat) : Prop := exists xs, seg h v ps xs Nil.
Definition pairs_of (pss : list (list nat)) : list (list val) := map (map Ptr) pss.
(** ** Sets *)
Definition mem (R : val -> val -> bool) (x : val) (xs : list val) : bool := existsb (R x) xs.
(** some of the elements, in their order *)
Inductive kept : list val -> list val -> Prop :=
| kept_nil : kept [] []
| kept_one x xs ys : kept xs ys -> kept (x :: xs) (x :: ys)
| kept_not x xs ys : kept xs ys -> kept xs (x :: ys).
Record equivalence (R : val -> val -> bool) : Prop := {
  R_refl : forall x, R x x = true; R_sym : forall x y, R x y = true -> R y x = true; R_trans : forall x y z, R x y = true -> R y z = true -> R x z = true }.
(** the behaviour of a predicate without effect *)
Definition asks {W : Type} (R : val -> val -> bool) : behaviour (W := W) := fun args w => match args with [x; y] => Some (bool_val (R x y), w) | _ => None end.
Definition subset (R : val -> val -> bool) (xs ys : list val) : bool := forallb (fun x => mem R x ys) xs.
(** each list and the next *)
Fixpoint chain (P : list val -> list val -> bool) (xs : list val) (xss : list (list val)) : bool :=
  match xss with [] => true | ys :: xss => P xs ys && chain P ys xss end.
Definition chained (P : list val -> list val -> bool) (xss : list (list val)) : bool := match xss with [] => true | xs :: xss => chain P xs xss end.
Definition same (R : val -> val -> bool) (xs ys : list val) : bool := subset R xs ys && subset R ys xs.
Fixpoint equal_lists (R : val -> val -> bool) (xs ys : list val) : bool := match xs, ys with [], [] => true | x :: xs, y :: ys => R x y && equal_lists R xs ys | _, _ => false end.
(** no element stands before an equivalent one *)
Definition distinct (R : val -> val -> bool) (xs : list val) : Prop := ForallOrdPairs (fun a b => R a b = false) xs.
(** in an odd number of the lists *)
Definition odd_mem (R : val -> val -> bool) (x : val) (yss : list (list val)) : bool := List.fold_right (fun ys b => xorb (mem R x ys) b) false yss.
(** y is put in front unless an equivalent element is there *)
Definition put_in (R : val -> val -> bool) (acc : list val) (y : val) : list val := if mem R y acc then acc else y :: acc.
Definition put_all (R : val -> val -> bool) (ys acc : list val) : list val := fold_left (put_in R) ys acc.
