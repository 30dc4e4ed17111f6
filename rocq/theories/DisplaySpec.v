(** What display writes (R7RS 6.13.3): lists and vectors with parentheses as write does, with
    the characters of strings and symbols and the characters themselves as they are, at any depth. *)
From Coq Require Import Ascii String ZArith List Bool.
From Verif Require Import Number TextPort TextPortProofs Writer.
Import ListNotations.
Open Scope Z_scope.

(** Data that are written in the same way by write *)
Definition bare (d : datum) : Prop := match d with Nil | Bool _ | Num _ | Inexact _ | End => True | _ => False end.
Inductive shown (inexact_text : nat -> list Z) : datum -> list Z -> Prop :=
| Shown_bare : forall d t, bare d -> write inexact_text d = Some t -> shown inexact_text d t
| Shown_char : forall c, shown inexact_text (Chr c) (rfc3629 c)
| Shown_string : forall cs, shown inexact_text (Str cs) (flat_map rfc3629 cs)
| Shown_symbol : forall name, shown inexact_text (Sym name) name
| Shown_pair : forall a b t u, shown inexact_text a t -> shown_rest inexact_text b u -> shown inexact_text (Pair a b) (codes "(" ++ t ++ u)
| Shown_empty : shown inexact_text (Vec []) (codes "#()")
| Shown_vector : forall d ds t u, shown inexact_text d t -> shown_items inexact_text ds u -> shown inexact_text (Vec (d :: ds)) (codes "#(" ++ t ++ u)
with shown_rest (inexact_text : nat -> list Z) : datum -> list Z -> Prop :=
| Rest_nil : shown_rest inexact_text Nil (codes ")")
| Rest_pair : forall a b t u, shown inexact_text a t -> shown_rest inexact_text b u -> shown_rest inexact_text (Pair a b) (codes " " ++ t ++ u)
| Rest_dot : forall d t, d <> Nil -> (forall a b, d <> Pair a b) -> shown inexact_text d t -> shown_rest inexact_text d (codes " . " ++ t ++ codes ")")
with shown_items (inexact_text : nat -> list Z) : list datum -> list Z -> Prop :=
| Items_none : shown_items inexact_text [] (codes ")")
| Items_more : forall d ds t u, shown inexact_text d t -> shown_items inexact_text ds u -> shown_items inexact_text (d :: ds) (codes " " ++ t ++ u).

(** Data without strings and characters, and with symbols that need no escapes *)
Inductive unescaped : datum -> Prop :=
| Un_bare : forall d, bare d -> unescaped d
| Un_symbol : forall name, name <> [] -> Forall (fun c => special c = false) name -> unescaped (Sym name)
| Un_pair : forall a b, unescaped a -> unescaped b -> unescaped (Pair a b)
| Un_vector : forall ds, Forall unescaped ds -> unescaped (Vec ds).
