(** What file inclusion should do, stated without the functions of Include.v (only its
    types). *)
From Coq Require Import String ZArith List Bool Lia.
From Verif Require Import Number Writer Include.
Import ListNotations.
Open Scope Z_scope.

(** A path with a file name: [given] ends in [name], which is not empty *)
Definition ends_in (given name : path) : Prop :=
  name <> [] /\ ~ In 47 name /\ (given = name \/ exists d, given = d ++ 47 :: name).
(** A file name without an extension: no dot but at its beginning *)
Definition bare (name : path) : Prop := name = [46; 46] \/ forall a b, name = a ++ 46 :: b -> a = [].

(** The path [given] seen from the directory [d] *)
Definition absolute (p : path) : Prop := exists r, p = 47 :: r.
Definition seen_from (d given p : path) : Prop :=
  (absolute given /\ p = given) \/
  (~ absolute given /\
   ((d = [] /\ p = given) \/ (exists e, d = e ++ [47] /\ p = d ++ given)
    \/ (exists e c, d = e ++ [c] /\ c <> 47 /\ p = d ++ 47 :: given))).
(** The suffixes tried: the file name as it is; if bare, also with the extensions *)
Definition suffixes (name : path) (l : list path) : Prop :=
  (bare name /\ l = [[]; codes ".ss"; codes ".sld"; codes ".scm"]) \/ (~ bare name /\ l = [[]]).
(** The places tried, one directory after the other *)
Definition places (directories : list path) (given : path) (sfx : list path) (l : list path) : Prop :=
  exists ps, Forall2 (fun d p => seen_from d given p) directories ps /\ l = flat_map (fun p => map (app p) sfx) ps.
(** The first that is accepted *)
Definition first_of (accepted : path -> bool) (l : list path) (p : path) : Prop :=
  exists before after, l = before ++ p :: after /\ accepted p = true /\ Forall (fun q => accepted q = false) before.

(** An absolute path spelt from its components *)
Definition component (s : path) : Prop := s <> [] /\ ~ In 47 s.
Definition spelt (segments : list path) : path := flat_map (cons 47) segments.

(** The directory of a source file: that of an absolute path; none if unknown *)
Definition directory_of (c : context) (d : path) : Prop :=
  match c with
  | None => d = []
  | Some f => exists segments name, Forall component segments /\ component name /\
              f = spelt (segments ++ [name]) /\ d = match segments with [] => [47] | _ => spelt segments end
  end.

(** Where the file [given] is found, seen from a text that stands in the file [c] *)
Definition found (fs : files) (c : context) (given p : path) : Prop :=
  (accept fs given = true /\ canonical fs given = Some p) \/
  (accept fs given = false /\ exists name d sfx l, ends_in given name /\ directory_of c d /\ suffixes name sfx /\
    places (d :: current_path fs :: directories fs) given sfx l /\ first_of (accept fs) l p).
Definition nowhere (fs : files) (c : context) (given : path) : Prop :=
  accept fs given = false /\ exists name d sfx l, ends_in given name /\ directory_of c d /\ suffixes name sfx /\
    places (d :: current_path fs :: directories fs) given sfx l /\ Forall (fun q => accept fs q = false) l.

(** The file [f] can be read and holds exactly the data [ds] *)
Definition holds (fs : files) (fold_case : bool) (f : path) (ds : list datum) : Prop :=
  (exists n, canonical fs f = Some n) /\ opens fs f = true /\ reads fs fold_case f = (ds, AtEof).

(** A list as a datum, and a form *)
Fixpoint list_datum (l : list datum) : datum := match l with [] => Nil | x :: l => Pair x (list_datum l) end.
Definition form (keyword : string) (l : list datum) : datum := Pair (Sym (codes keyword)) (list_datum l).

(** Doing one thing after the other, until one fails *)
Inductive in_order {A S : Type} (run : A -> S -> S * option failure) : list A -> S -> S -> option failure -> Prop :=
| none st : in_order run [] st st None
| more x xs st st1 st2 e : run x st = (st1, None) -> in_order run xs st1 st2 e -> in_order run (x :: xs) st st2 e
| stops x xs st st1 why : run x st = (st1, Some why) -> in_order run (x :: xs) st st1 (Some why).

(** A relative path, or an absolute one without repeated slashes *)
Definition tidy (p : path) : Prop := ~ absolute p \/ exists segments, Forall component segments /\ segments <> [] /\ p = spelt segments.

(** The declarations of a library that stand by themselves *)
Inductive declaration :=
| Exports (specs : list datum)
| Begins (body : list datum)
| Other (x : datum).
Definition not_special (x : datum) : Prop :=
  forall rest, x <> Pair (Sym (codes "export")) rest /\ x <> Pair (Sym (codes "begin")) rest /\
               x <> Pair (Sym (codes "include-library-declarations")) rest /\ x <> Pair (Sym (codes "cond-expand")) rest.
Definition well_formed (d : declaration) : Prop := match d with Other x => not_special x | _ => True end.
Definition written (d : declaration) : datum :=
  match d with Exports specs => form "export" specs | Begins body => form "begin" body | Other x => x end.
Definition specs_of (d : declaration) : list datum := match d with Exports specs => specs | _ => [] end.
Definition run_by (d : declaration) : list datum := match d with Exports _ => [] | Begins body => body | Other x => [x] end.
