(** Whole programs, as text, on top of the text of the library: they are read, expanded,
    compiled and run together with it. *)
From Coq Require Import String ZArith List Bool.
From Verif Require Import Machine Generator Evaluate LibraryCode.
Import ListNotations.
Local Open Scope string_scope.

(** Programs on top of the library: what they noted in register 3, as symbols, the first first *)
Definition note_text : string := "(define (note x) (install 3 (cons x (current 3))))".
(** Symbols and booleans *)
Definition noted (symbols : list name) (x : val) : name :=
  match x with VPtr q => nth q symbols [] | _ => if val_eqb x t_ then text_of "#t" else if val_eqb x f_ then text_of "#f" else [] end.
Fixpoint symbol_list (symbols : list name) (h : heap) (fuel : nat) (v : val) : list name :=
  match fuel, v with
  | S fuel, VPtr p => match nth_error h p with
                      | Some (OPair x w) => noted symbols x :: symbol_list symbols h fuel w
                      | _ => []
                      end
  | _, _ => []
  end.
Definition noted_of (r : option (list name * genv * heap * list val)) : option (list name) :=
  match r with
  | Some (symbols, G, h, a) => Some (rev (symbol_list symbols h 100 (nth 3 a VNil)))
  | None => None
  end.
Definition notes (text : string) : option (list name) :=
  noted_of (load_text un ud library_primitive (library_text ++ note_text ++ text) library_registers).
