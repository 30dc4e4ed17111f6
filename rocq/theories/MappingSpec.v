(** What is asked of map and for-each: which calls are made, in which order, and what is returned. *)
From Coq Require Import ZArith List Bool PeanoNat.
From Verif Require Import Lists ListsProofs Srfi1 Srfi1Spec.
Import ListNotations.

Section Spec.
Context {W : Type}.
(** f, called when everything of h0 is still there, only adds objects to the heap; it need not return *)
Definition only_adds (h0 : heap) (f : proc (W := W)) : Prop :=
  forall args h w r h' w', ext h0 h -> f args h w = Ret r h' w' -> ext h h'.
(** f is called with the argument lists argss, one after the other and nothing else, and gives the values rs; between the calls the heap may grow, the world is left alone *)
Inductive runs (f : proc (W := W)) : heap -> W -> list (list val) -> list val -> heap -> W -> Prop :=
| runs_none h w h' : ext h h' -> runs f h w [] [] h' w
| runs_one h w h1 args r h2 w1 argss rs h' w' : ext h h1 -> f args h1 w = Ret r h2 w1 -> runs f h2 w1 argss rs h' w' ->
    runs f h w (args :: argss) (r :: rs) h' w'.
(** the outcome of a call that does not return *)
Definition not_returned {A B} (o : out (W := W) A) (o' : out (W := W) B) : Prop :=
  (o = Stop /\ o' = Stop) \/ (o = More /\ o' = More).
(** m makes the calls of f with argss, in order: either all return, values for P, or one does not and neither does m *)
Definition makes {A} (f : proc (W := W)) (m : M (W := W) A) (argss : list (list val)) (P : list val -> A -> heap -> Prop) (h : heap) (w : W) : Prop :=
  (exists rs a h' w', m h w = Ret a h' w' /\ ext h h' /\ runs f h w argss rs h' w' /\ P rs a h') \/
  (exists before args after rs h1 w1, argss = before ++ args :: after /\ runs f h w before rs h1 w1 /\ not_returned (f args h1 w1) (m h w)).
(** v starts with the elements xs; what follows may be anything, also a circle *)
Definition starts (h : heap) (v : val) (xs : list val) : Prop := exists ps z, seg h v ps xs z.
(** row i has the element i of each; n rows *)
Definition first_rows (n : nat) (xss : list (list val)) : list (list val) :=
  map (fun i => map (fun xs => nth i xs Nil) xss) (seq 0 n).
(** the lists vs have at least n elements each, xss, and one of them has no more *)
Definition cut (h : heap) (n : nat) (vs : list val) (xss : list (list val)) : Prop :=
  Forall2 (starts h) vs xss /\ Forall (fun xs => length xs = n) xss /\
  Exists (fun v => exists xs, plist h v xs /\ length xs = n) vs.
End Spec.
