(** Model of file inclusion and of the declarations of a library:
    src/kernel/textual_context.cpp:23-104, include/meevax/kernel/include.hpp:25-58,
    include/meevax/kernel/input_file_port.hpp:26-37, src/kernel/input_file_port.cpp:27-30,
    environment.cpp:29-69, 187-200, expander.cpp:166-180, library.cpp:26-82,
    configure/system.cpp:27-31.

    A path is the bytes of its text.  The operations on paths are those of
    std::filesystem on POSIX.  The file system is given by what it answers: which
    paths are accepted, what the canonical form of a path is, which data a file
    holds.  It does not change while the program runs (a simplification).  A datum
    is that of Writer.v; all pairs that one port reads share the source file of the
    port (textual_input_port.cpp:558), so the source file is kept once with each
    datum.  The pairs of the forms that the reader makes from quote marks have none
    in the code (textual_input_port.cpp:552); no file name is looked for in those.
    The table of the source files is never cleaned: that a dead pair and a new pair
    may have the same address is not modelled.  What the evaluator does with
    an expression, a define-library or an import form is a parameter. *)
From Coq Require Import String ZArith List Bool Lia.
From Verif Require Import Number NumberText TextPort Writer CondExpand.
Import ListNotations.
Open Scope Z_scope.

(** ** Paths *)
Definition path := list Z.
(** At the last occurrence of [c]: what stands before and after it *)
Fixpoint split_last (c : Z) (l : list Z) : option (list Z * list Z) :=
  match l with
  | [] => None
  | x :: l => match split_last c l with
              | Some (a, b) => Some (x :: a, b)
              | None => if x =? c then Some ([], l) else None
              end
  end.
(** path::filename *)
Definition filename (p : path) : path := match split_last 47 p with Some (_, f) => f | None => p end.
(** path::is_absolute *)
Definition is_absolute (p : path) : bool := match p with c :: _ => c =? 47 | [] => false end.
(** operator /, as textual_context.cpp:49 uses it *)
Definition join (p q : path) : path :=
  if is_absolute q then q else match filename p with [] => p ++ q | _ => p ++ 47 :: q end.
(** path::parent_path, as textual_context.cpp:38 uses it *)
Fixpoint strip_slashes (reversed : list Z) : list Z :=
  match reversed with c :: l => if c =? 47 then strip_slashes l else reversed | [] => [] end.
Definition parent_path (p : path) : path :=
  match split_last 47 p with
  | None => []
  | Some (a, f) =>
    match rev (strip_slashes (rev a)), f with
    | [], [] => p                          (* nothing but slashes *)
    | [], _ => [47]
    | d, _ => d
    end
  end.
(** path::extension, as textual_context.cpp:53 uses it *)
Definition same_path_text (p q : path) : bool := if list_eq_dec Z.eq_dec p q then true else false.
Definition extension (p : path) : path :=
  let f := filename p in
  if same_path_text f [46; 46] then []
  else match split_last 46 f with
       | Some ([], _) => []
       | Some (_, e) => 46 :: e
       | None => []
       end.
(** path::replace_extension, as textual_context.cpp:57 uses it *)
Definition replace_extension (p e : path) : path :=
  firstn (length p - length (extension p)) p ++
  match e with [] => [] | c :: _ => if c =? 46 then e else 46 :: e end.
(** Comparison of paths in std::set: by components, so that slashes may be repeated *)
Fixpoint components (current : path) (p : path) : list path :=
  match p with
  | [] => [rev current]
  | c :: p => if c =? 47 then match current with [] => components [] p | _ => rev current :: components [] p end
              else components (c :: current) p
  end.
Definition same_path (p q : path) : bool :=
  Bool.eqb (is_absolute p) (is_absolute q) &&
  (if list_eq_dec (list_eq_dec Z.eq_dec) (components [] p) (components [] q) then true else false).

(** extensions, configure/system.cpp:27-31 *)
Definition extensions : list path := [codes "ss"; codes "sld"; codes "scm"].

(** textual_context::proxy: the source file, if known *)
Definition context := option path.
(** source_file and source_directory, textual_context.cpp:31-39 *)
Definition source_directory (c : context) : path := match c with Some p => parent_path p | None => parent_path [] end.

(** What a file holds, as reading it with and without fold-case finds *)
Inductive ending := AtEof | Broken.
Inductive failure :=
| NotLocated        (* error "Failed to locate", textual_context.cpp:76-77 *)
| FilesystemError   (* std::filesystem::canonical throws *)
| FileError         (* error "failed to open file", environment.cpp:198 *)
| ReadError         (* an exception of the reader *)
| BadName           (* as<string>, include.hpp:34 *)
| Undefined         (* car or cdr of what is no pair *)
| Failed            (* an exception of the evaluator *)
| Fuel.             (* the model ran out of fuel *)
Inductive result (A : Type) := Done (a : A) | Fails (why : failure).
Arguments Done {A} a.  Arguments Fails {A} why.

Record files := Files
{ accept : path -> bool;                         (* is_existing_non_directory, textual_context.cpp:101-104 *)
  canonical : path -> option path;               (* std::filesystem::canonical; None: it throws *)
  opens : path -> bool;                          (* std::ifstream can open it *)
  reads : bool -> path -> list datum * ending;   (* the data of the file *)
  current_path : path;
  directories : list path }.

Section Locate.
  Variable fs : files.
  (** LOCATE, textual_context.cpp:48-63 *)
  Fixpoint try_extensions (p : path) (es : list path) : option path :=
    match es with
    | [] => None
    | e :: es => let p := replace_extension p e in if accept fs p then Some p else try_extensions p es
    end.
  Definition try_in (directory given : path) : option path :=
    let p := join directory given in
    if accept fs p then Some p
    else match extension given with [] => try_extensions p extensions | _ => None end.
  Fixpoint try_each (ds : list path) (given : path) : option path :=
    match ds with
    | [] => None
    | d :: ds => match try_in d given with Some p => Some p | None => try_each ds given end
    end.
  (** locate, textual_context.cpp:41-78 *)
  Definition locate (c : context) (given : path) : result path :=
    if accept fs given then match canonical fs given with Some p => Done p | None => Fails FilesystemError end
    else match try_each (source_directory c :: current_path fs :: directories fs) given with
         | Some p => Done p
         | None => Fails NotLocated
         end.
End Locate.

(** ** Ports on files *)
(** textual_context::paths, a set *)
Definition emplace_path (p : path) (paths : list path) : list path :=
  if existsb (same_path p) paths then paths else paths ++ [p].
(** proxy(path), textual_context.cpp:27-29 *)
Definition find_path (p : path) (paths : list path) : context := find (same_path p) paths.

Section Include.
  Variable fs : files.
  (** The constructor of input_file_port, input_file_port.hpp:32-37, called with [p].  The
      member [name] is the canonical path.  The body sees the parameter [name]: it
      hides the member.  Next comes the source file that cons gives to the pairs read
      (input_file_port.cpp:27-30 and textual_context.cpp:80-87). *)
  Definition open_port (p : path) (paths : list path) : result (context * path * list path) :=
    match canonical fs p with
    | Some name => let paths := emplace_path p paths in Done (find_path name paths, p, paths)
    | None => Fails FilesystemError
    end.
  (** Reading until the end of the file, include.hpp:46-57 *)
  Definition read_all (fold_case : bool) (p : path) : result (list datum) :=
    if opens fs p then match reads fs fold_case p with
                       | (ds, AtEof) => Done ds
                       | (_, Broken) => Fails ReadError
                       end
    else Fails ReadError.
  (** include, include.hpp:29-57: [c] is the source file of the list of names.  A failure
      leaves the table of paths as it is by then. *)
  Fixpoint include (fold_case : bool) (c : context) (names : datum) (xs : list (context * datum)) (paths : list path)
    : result (list (context * datum)) * list path :=
    match names with
    | Pair (Str s) rest =>
      match locate fs c (flat_map utf8 s) with
      | Done p =>
        match open_port p paths with
        | Done (c', p, paths) =>
          match read_all fold_case p with
          | Done ds => include fold_case c rest (rev (map (pair c') ds) ++ xs) paths
          | Fails why => (Fails why, paths)
          end
        | Fails why => (Fails why, paths)
        end
      | Fails why => (Fails why, paths)
      end
    | Pair _ _ => (Fails BadName, paths)
    | _ => (Done (rev xs), paths)
    end.
End Include.

(** The expander, expander.cpp:166-180: the form becomes begin with these data.  The
    argument of meevax::include is the cadr of the form. *)
Definition expand_include (fs : files) (fold_case : bool) (c : context) (form : datum) (paths : list path)
  : result (list (context * datum)) * list path :=
  match form with
  | Pair _ (Pair names _) => include fs fold_case c names [] paths
  | _ => (Fails Undefined, paths)
  end.

(** ** Evaluation at the outermost level *)
Section Evaluate.
  Context {W : Type}.
  Variable fs : files.
  Record state := State { paths : list path; world : W }.
  (** Everything but include: define-library, import, compilation and execution.  A
      failure leaves a state too. *)
  Variable perform : context -> datum -> state -> state * option failure.

  Definition form_of (name : string) (x : datum) : option datum :=
    match x with Pair (Sym n) rest => if same_name n (codes name) then Some rest else None | _ => None end.

  (** A loop over data, environment.cpp:50-53, 59-62 *)
  Fixpoint each (run : context * datum -> state -> state * option failure) (xs : list (context * datum)) (st : state)
    : state * option failure :=
    match xs with
    | [] => (st, None)
    | x :: xs => match run x st with
                 | (st, None) => each run xs st
                 | (st, Some why) => (st, Some why)
                 end
    end.
  (** environment::evaluate, environment.cpp:29-69 *)
  Fixpoint evaluate (fuel : nat) (x : context * datum) (st : state) : state * option failure :=
    match fuel with
    | O => (st, Some Fuel)
    | S fuel =>
      let included fold_case names :=
        match include fs fold_case (fst x) names [] (paths st) with
        | (Done ds, ps) => each (evaluate fuel) ds (State ps (world st))
        | (Fails why, ps) => (State ps (world st), Some why)
        end in
      match form_of "include" (snd x) with
      | Some names => included false names
      | None => match form_of "include-ci" (snd x) with
                | Some names => included true names
                | None => perform (fst x) (snd x) st
                end
      end
    end.
  (** environment::load, environment.cpp:187-200: each datum is evaluated before the
      next is read *)
  Definition load (fuel : nat) (p : path) (st : state) : state * option failure :=
    match open_port fs p (paths st) with
    | Done (c, p, ps) =>
      let st := State ps (world st) in
      if opens fs p then
        let '(ds, e) := reads fs false p in
        match each (evaluate fuel) (map (pair c) ds) st with
        | (st, None) => (st, match e with AtEof => None | Broken => Some ReadError end)
        | (st, Some why) => (st, Some why)
        end
      else (st, Some FileError)
    | Fails why => (st, Some why)
    end.

  (** ** Libraries *)
  Record library := Library
  { declarations : list (context * datum);    (* those not evaluated yet *)
    export_specs : list datum }.
  (** The features and the keys of libraries() decide cond-expand, CondExpand.v; the
      libraries are those of the state *)
  Variable expand_clauses : state -> datum -> outcome datum.

  (** A proper list; anything else is undefined behaviour, proper_list.hpp:58-62 *)
  Fixpoint elements (l : datum) : option (list datum) :=
    match l with
    | Nil => Some []
    | Pair a l => match elements l with Some xs => Some (a :: xs) | None => None end
    | _ => None
    end.
  (** append, list.cpp:253-263: ends at what is no pair *)
  Fixpoint front (l : datum) : list datum := match l with Pair a l => a :: front l | _ => [] end.
  Fixpoint each_declaration (run : context * datum -> list datum -> state -> list datum * state * option failure)
    (xs : list (context * datum)) (exported : list datum) (st : state) : list datum * state * option failure :=
    match xs with
    | [] => (exported, st, None)
    | x :: xs => match run x exported st with
                 | (exported, st, None) => each_declaration run xs exported st
                 | (exported, st, Some why) => (exported, st, Some why)
                 end
    end.
  (** library::evaluate, library.cpp:30-70.  The list of the export specs is a member of
      the library. *)
  Fixpoint declare (fuel : nat) (x : context * datum) (exported : list datum) (st : state)
    : list datum * state * option failure :=
    match fuel with
    | O => (exported, st, Some Fuel)
    | S fuel =>
      let c := fst x in
      match form_of "export" (snd x) with
      | Some specs => (front specs ++ exported, st, None)
      | None =>
      match form_of "begin" (snd x) with
      | Some body =>
        match elements body with
        | Some xs => let '(st, e) := each (evaluate fuel) (map (pair c) xs) st in (exported, st, e)
        | None => (exported, st, Some Undefined)
        end
      | None =>
      match form_of "include-library-declarations" (snd x) with
      | Some names =>
        match include fs false c names [] (paths st) with
        | (Done ds, ps) => each_declaration (declare fuel) ds exported (State ps (world st))
        | (Fails why, ps) => (exported, State ps (world st), Some why)
        end
      | None =>
      match form_of "cond-expand" (snd x) with
      | Some clauses =>
        match expand_clauses st clauses with
        | Ok body => match elements body with
                     | Some xs => each_declaration (declare fuel) (map (pair c) xs) exported st
                     | None => (exported, st, Some Undefined)
                     end
        | Raise => (exported, st, Some Failed)
        | Crash => (exported, st, Some Undefined)
        end
      | None => let '(st, e) := evaluate fuel x st in (exported, st, e)
      end end end end
    end.
  (** library::import_set, library.cpp:72-83, up to the export specs, which
      Environment.v turns into cells *)
  Definition import_library (fuel : nat) (l : library) (st : state) : library * state * option failure :=
    let '(exported, st, e) := each_declaration (declare fuel) (declarations l) (export_specs l) st in
    (Library [] exported, st, e).
End Evaluate.
Arguments state : clear implicits.
