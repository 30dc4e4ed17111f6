(** Model of libraries and import sets: src/kernel/environment.cpp:33-40, 71-185,
    library.cpp:71-102, syntactic_environment.cpp:130-194 (at the outermost level).

    A symbol is its name, which stands for the object by C37.  The heap is a list of
    the cells (<identifier> . <object>) that the code calls absolute; a position in
    it is the cell.  Values are abstract.  Identifiers that are syntactic closures
    are not modelled.  The declarations of a library have been evaluated: [exports]
    is library::export_specs and [globals] the member [second] of its evaluator,
    newest cell first.  Loading a library from a file (environment.cpp:147-166) is
    not modelled.  [Crash] is undefined behaviour. *)
From Coq Require Import String ZArith List Bool Lia.
From Verif Require Import Number NumberProofs NumberText TextPort TextPortProofs Writer Reader ReaderProofs RoundTrip CondExpand.
Import ListNotations.
Open Scope Z_scope.

Inductive value := Undefined_value | Value (v : Z).
Record cell := Cell { cell_name : list Z; cell_value : value }.
Record library := Lib { exports : datum; globals : list nat }.
Record world := World { heap : list cell; libs : list (list Z * library) }.

(** std::map::find and emplace, which does nothing when the key is there *)
Fixpoint find_lib (key : list Z) (l : list (list Z * library)) : option library :=
  match l with
  | [] => None
  | (k, x) :: l => if same_name k key then Some x else find_lib key l
  end.
Definition emplace (key : list Z) (x : library) (l : list (list Z * library)) : list (list Z * library) :=
  match find_lib key l with Some _ => l | None => l ++ [(key, x)] end.
Fixpoint update_lib (key : list Z) (x : library) (l : list (list Z * library)) : list (list Z * library) :=
  match l with
  | [] => []
  | (k, y) :: l => if same_name k key then (k, x) :: l else (k, y) :: update_lib key x l
  end.

(** make<absolute> *)
Definition make_cell (name : list Z) (v : value) (h : list cell) : nat * list cell :=
  (length h, h ++ [Cell name v]).
(** assq(variable, second) *)
Fixpoint assq_global (name : list Z) (second : list nat) (h : list cell) : option nat :=
  match second with
  | [] => None
  | a :: second => match nth_error h a with
                   | Some c => if same_name (cell_name c) name then Some a else assq_global name second h
                   | None => None
                   end
  end.
(** identify, syntactic_environment.cpp:171-194: an unknown variable gets a new cell *)
Definition identify (name : list Z) (second : list nat) (h : list cell) : nat * list nat * list cell :=
  match assq_global name second h with
  | Some a => (a, second, h)
  | None => let '(a, h) := make_cell name Undefined_value h in (a, a :: second, h)
  end.

(** library::import_set, library.cpp:83-101: map over the export specs *)
Fixpoint export_set (specs : datum) (second : list nat) (h : list cell) : outcome (list nat * list nat * list cell) :=
  match specs with
  | Pair spec specs =>
    match spec with
    | Sym name =>
      let '(a, second, h) := identify name second h in
      match export_set specs second h with
      | Ok (xs, second, h) => Ok (a :: xs, second, h)
      | Raise => Raise
      | Crash => Crash
      end
    | Pair _ (Pair (Sym internal) (Pair (Sym external) _)) =>
      let '(a, second, h) := identify internal second h in
      match nth_error h a with
      | Some c => let '(b, h) := make_cell external (cell_value c) h in
                  match export_set specs second h with
                  | Ok (xs, second, h) => Ok (b :: xs, second, h)
                  | Raise => Raise
                  | Crash => Crash
                  end
      | None => Crash
      end
    | _ => Crash
    end
  | _ => Ok ([], second, h)
  end.

(** memq and assq on the identifiers and renamings of an import set; [Crash] is caar
    or cadr of something else *)
Fixpoint memq (name : list Z) (l : datum) : bool :=
  match l with
  | Pair (Sym n) l => if same_name n name then true else memq name l
  | Pair _ l => memq name l
  | _ => false
  end.
Fixpoint assq_renaming (name : list Z) (l : datum) : outcome (option (list Z)) :=
  match l with
  | Pair (Pair (Sym n) r) l =>
    if same_name n name then match r with Pair (Sym m) _ => Ok (Some m) | _ => Crash end
    else assq_renaming name l
  | Pair (Pair _ _) l => assq_renaming name l
  | Pair _ _ => Crash
  | _ => Ok None
  end.

Definition named (h : list cell) (a : nat) : list Z :=
  match nth_error h a with Some c => cell_name c | None => [] end.
(** filter by the name of the cell, environment.cpp:81-100 *)
Definition keep (wanted : bool) (ids : datum) (h : list cell) (xs : list nat) : list nat :=
  filter (fun a => Bool.eqb (memq (named h a) ids) wanted) xs.

(** map of the lambda [prefix], environment.cpp:108-115: both names are written *)
Fixpoint add_prefix (p : list Z) (xs : list nat) (h : list cell) : outcome (list nat * list cell) :=
  match xs with
  | [] => Ok ([], h)
  | a :: xs =>
    match nth_error h a with
    | Some c =>
      match write_symbol (cell_name c) with
      | Some n => let '(b, h) := make_cell (p ++ n) (cell_value c) h in
                  match add_prefix p xs h with
                  | Ok (ys, h) => Ok (b :: ys, h)
                  | Raise => Raise
                  | Crash => Crash
                  end
      | None => Crash
      end
    | None => Crash
    end
  end.
(** map of the lambda [rename], environment.cpp:126-141 *)
Fixpoint rename_all (renamings : datum) (xs : list nat) (h : list cell) : outcome (list nat * list cell) :=
  match xs with
  | [] => Ok ([], h)
  | a :: xs =>
    match nth_error h a with
    | Some c =>
      match assq_renaming (cell_name c) renamings with
      | Ok o =>
        let '(b, h) := match o with Some m => make_cell m (cell_value c) h | None => (a, h) end in
        match rename_all renamings xs h with
        | Ok (ys, h) => Ok (b :: ys, h)
        | Raise => Raise
        | Crash => Crash
        end
      | Raise => Raise
      | Crash => Crash
      end
    | None => Crash
    end
  end.

Section Import.
  Variable inexact_text : nat -> list Z.

  (** define-library, environment.cpp:33-40 *)
  Definition define_library (name : datum) (x : library) (w : world) : outcome world :=
    match write inexact_text name with
    | Some key => Ok (World (heap w) (emplace key x (libs w)))
    | None => Crash
    end.

  (** A library name, environment.cpp:143-146 *)
  Definition library_set (form : datum) (w : world) : outcome (list nat * world) :=
    match write inexact_text form with
    | Some key =>
      match find_lib key (libs w) with
      | Some x => match export_set (exports x) (globals x) (heap w) with
                  | Ok (xs, second, h) => Ok (xs, World h (update_lib key (Lib (exports x) second) (libs w)))
                  | Raise => Raise
                  | Crash => Crash
                  end
      | None => Raise
      end
    | None => Crash
    end.

  (** import_set, environment.cpp:71-168 *)
  Fixpoint import_set (form : datum) (w : world) : outcome (list nat * world) :=
    match form with
    | Pair (Sym keyword) rest =>
      if same_name keyword (codes "only") then
        match rest with
        | Pair set ids => match import_set set w with
                          | Ok (xs, w) => Ok (keep true ids (heap w) xs, w)
                          | bad => bad
                          end
        | _ => Crash
        end
      else if same_name keyword (codes "except") then
        match rest with
        | Pair set ids => match import_set set w with
                          | Ok (xs, w) => Ok (keep false ids (heap w) xs, w)
                          | bad => bad
                          end
        | _ => Crash
        end
      else if same_name keyword (codes "prefix") then
        match rest with
        | Pair set (Pair p _) =>
          match import_set set w with
          | Ok (xs, w) => match write inexact_text p with
                          | Some p => match add_prefix p xs (heap w) with
                                      | Ok (ys, h) => Ok (ys, World h (libs w))
                                      | Raise => Raise
                                      | Crash => Crash
                                      end
                          | None => Crash
                          end
          | bad => bad
          end
        | _ => Crash
        end
      else if same_name keyword (codes "rename") then
        match rest with
        | Pair set renamings =>
          match import_set set w with
          | Ok (xs, w) => match rename_all renamings xs (heap w) with
                          | Ok (ys, h) => Ok (ys, World h (libs w))
                          | Raise => Raise
                          | Crash => Crash
                          end
          | bad => bad
          end
        | _ => Crash
        end
      else library_set form w
    | Pair _ _ => Raise                (* as<symbol> throws *)
    | _ => Crash
    end.

  (** The loop of environment::import, environment.cpp:170-185, on the environment
      whose bindings are [second] *)
  Fixpoint import_all (interaction : bool) (xs : list nat) (second : list nat) (h : list cell) : outcome (list nat) :=
    match xs with
    | [] => Ok second
    | x :: xs =>
      match assq_global (named h x) second h with
      | Some y => if interaction then import_all interaction xs (x :: second) h
                  else if Nat.eqb x y then import_all interaction xs second h
                  else Raise
      | None => import_all interaction xs (x :: second) h
      end
    end.
  Definition import (interaction : bool) (form : datum) (second : list nat) (w : world) : outcome (list nat * world) :=
    match import_set form w with
    | Ok (xs, w) => match import_all interaction xs second (heap w) with
                    | Ok second => Ok (second, w)
                    | Raise => Raise
                    | Crash => Crash
                    end
    | Raise => Raise
    | Crash => Crash
    end.
End Import.

(** ** Specification: import sets (R7RS 5.2) *)
Inductive iset :=
| Whole (library : datum)
| Only (s : iset) (ids : list (list Z))
| Except (s : iset) (ids : list (list Z))
| Prefixed (s : iset) (p : list Z)
| Renamed (s : iset) (rs : list (list Z * list Z)).
Definition symbols (ns : list (list Z)) : datum := list_of (map Sym ns).
Fixpoint form_of (s : iset) : datum :=
  match s with
  | Whole d => d
  | Only s ids => Pair (Sym (codes "only")) (Pair (form_of s) (symbols ids))
  | Except s ids => Pair (Sym (codes "except")) (Pair (form_of s) (symbols ids))
  | Prefixed s p => Pair (Sym (codes "prefix")) (Pair (form_of s) (Pair (Sym p) Nil))
  | Renamed s rs => Pair (Sym (codes "rename")) (Pair (form_of s)
                      (list_of (map (fun '(a, b) => Pair (Sym a) (Pair (Sym b) Nil)) rs)))
  end.
(** A binding: a name, and the location in the exporting library.  The flag tells
    whether the name differs from the one in the library by an explicit renaming *)
Record binding := Bind { bname : list Z; location : nat; changed : bool }.
Fixpoint image (n : list Z) (rs : list (list Z * list Z)) : option (list Z) :=
  match rs with
  | [] => None
  | (a, b) :: rs => if same_name a n then Some b else image n rs
  end.
Section Spec.
  (** What each library exports *)
  Variable exported : datum -> list binding.
  Fixpoint denotes (s : iset) : list binding :=
    match s with
    | Whole d => exported d
    | Only s ids => filter (fun b => existsb (same_name (bname b)) ids) (denotes s)
    | Except s ids => filter (fun b => negb (existsb (same_name (bname b)) ids)) (denotes s)
    | Prefixed s p => map (fun b => Bind (p ++ bname b) (location b) true) (denotes s)
    | Renamed s rs => map (fun b => match image (bname b) rs with
                                    | Some n => Bind n (location b) true
                                    | None => b
                                    end) (denotes s)
    end.
End Spec.
