(** Model of map (library/meevax.ss:119-142), for-each (library/r4rs.ss:294-302) and of string-map, vector-map,
    string-for-each and vector-for-each (library/r7rs.ss:202-220), with the heap, the world and the procedures of Srfi1.v.

    Simplifications, as in Srfi1.v: the lists of the lists, of their cars and of their cdrs are lists of Gallina, as are the arguments of a call;
    the contents of a string or of a vector are a list of Gallina; the kind of the values of the procedure (list->string
    wants characters) is not checked.  Operands are evaluated from the last to the first (generator.cpp:262-271). *)
From Coq Require Import ZArith List Bool.
From Verif Require Import Lists Srfi1.
Import ListNotations.

Section Mapping.
Context {W : Type}.
Notation M := (M (W := W)). Notation proc := (proc (W := W)).
Local Notation "x <~ m ; k" := (mbind m (fun x => k)) (at level 61, m at next level, right associativity).

(** reverse, boot.cpp:155 and list.cpp:306-321; the fuel is enough for any proper list *)
Definition reversed (x : val) : M val :=
  fun h w => match reverse (S (length h)) h x with Done (r, h') => Ret r h' w | Ub => Stop | Loop => More end.
(** the inner map, meevax.ss:128-133 *)
Fixpoint map1 (fuel : nat) (f : proc) (x a : val) : M val :=
  match fuel with
  | O => more
  | S fuel =>
    if is_null x then reversed a
    else c <~ head x; r <~ f [c]; a' <~ pair r a; d <~ tail x; map1 fuel f d a'
  end.
(** (map car xs '()) and (map cdr xs '()) of map*, meevax.ss:138-139 *)
Fixpoint heads (xs : list val) : M (list val) :=
  match xs with [] => ret [] | x :: xs => a <~ head x; r <~ heads xs; ret (a :: r) end.
Fixpoint tails (xs : list val) : M (list val) :=
  match xs with [] => ret [] | x :: xs => d <~ tail x; r <~ tails xs; ret (d :: r) end.
(** map*, meevax.ss:134-139; (memq '() xs) looks for the empty list among the lists *)
Fixpoint mapn (fuel : nat) (f : proc) (xs : list val) (a : val) : M val :=
  match fuel with
  | O => more
  | S fuel =>
    if existsb is_null xs then reversed a
    else cs <~ heads xs; r <~ f cs; a' <~ pair r a; ds <~ tails xs; mapn fuel f ds a'
  end.
(** map, meevax.ss:127 and 140-142; without lists (cdr xs) is not defined *)
Definition map_ (fuel : nat) (f : proc) (xs : list val) : M val :=
  match xs with [] => stop | [x] => map1 fuel f x Nil | _ => mapn fuel f xs Nil end.
(** for-each, r4rs.ss:294-302; the first list is required; for one list see for_each1 in Srfi1.v *)
Definition for_each (fuel : nat) (f : proc) (xs : list val) : M unit :=
  match xs with [] => stop | [x] => for_each1 fuel f x | _ => _ <~ map_ fuel f xs; ret tt end.

(** vector->list and string->list of everything, boot.cpp:365 and 394: the list is consed from the last element *)
Fixpoint elements (xs : list val) : M val :=
  match xs with [] => ret Nil | x :: xs => r <~ elements xs; pair x r end.
(** (map vector->list (cons x xs)), r7rs.ss:205, 210, 215, 220 *)
Fixpoint all_elements (xss : list (list val)) : M (list val) :=
  match xss with [] => ret [] | xs :: xss => l <~ elements xs; r <~ all_elements xss; ret (l :: r) end.
(** string-map and vector-map, r7rs.ss:202-210; list->string and list->vector (boot.cpp:366 and 395) take the elements of the list in order *)
Definition sequence_map (fuel : nat) (f : proc) (xss : list (list val)) : M (list val) :=
  ls <~ all_elements xss; r <~ map_ fuel f ls; spread_all r.
(** string-for-each and vector-for-each, r7rs.ss:212-220 *)
Definition sequence_for_each (fuel : nat) (f : proc) (xss : list (list val)) : M unit :=
  ls <~ all_elements xss; for_each fuel f ls.
End Mapping.
