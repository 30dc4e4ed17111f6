(** exit in the environment of its own library.

    LibraryCode.v evaluates all texts in one environment, in which letrec is a keyword.
    The library (meevax continuation), library/meevax.ss:43-100, imports six keywords of
    (meevax core), and letrec is not one of them.  Here the definition of exit is expanded,
    compiled and evaluated with the names that its library has. *)
From Coq Require Import String ZArith List Bool.
From Verif Require Writer.
From Verif Require Import Machine Generator Evaluate LibraryCode ProgramText.
Import ListNotations.
Local Open Scope string_scope.
Local Open Scope list_scope.

(** library/meevax.ss:44-48: what (meevax continuation) imports *)
Definition imported : list string :=
  ["emergency-exit"; "eq?"; "begin"; "call-with-current-continuation!"; "current"; "define"; "if"; "install"; "lambda";
   "caar"; "car"; "cdar"; "cdr"; "cons"; "pair?"; "null?"].
(** library/meevax.ss:52-90: what it defines before exit *)
Definition defined_before : list string :=
  ["current-dynamic-extents"; "install-dynamic-extents!"; "dynamic-wind"; "call-with-current-continuation"].
(** The keywords of the core that the library does not have: to the expander they are
    variables (syntactic_environment.cpp:71-88) *)
Definition no_keywords : list name :=
  filter (fun n => negb (existsb (fun s => name_eqb (text_of s) n) imported)) (map (fun k => text_of (fst k)) core_keywords).
(** The scope of the library: the two aliases of default_rename, which are closed in the
    core (syntactic_environment.cpp:362-365), and these names *)
Definition in_library (symbols : list name) (p : nat * nat) : bool :=
  Nat.ltb (fst p) 2 || existsb (fun s => name_eqb (text_of s) (nth (fst p) symbols [])) (imported ++ defined_before).
Definition library_scope (symbols : list name) (G : genv) : genv := GEnv (filter (in_library symbols) (scope G)) (cells G).
(** library.cpp:40-48: the definition of exit is evaluated in the library, and the scope
    of whoever imports it gets its cell (library.cpp:84-101) *)
Definition define_exit (symbols : list name) (G : genv) (h : heap) (a : list val) : option (genv * heap * list val) :=
  match read_data exit_text with
  | [d] =>
    ob (expand symbols 1000 no_keywords d) (fun f =>
    ob (evaluate un ud library_primitive (100 * 100) (library_scope symbols G) h a f) (fun r =>
    let '(_, G', h, a) := r in
    ob (id_of symbols (text_of "exit")) (fun i =>
    ob (assq i (scope G')) (fun n =>
    Some (GEnv ((i, n) :: scope G) (cells G'), h, a)))))
  | _ => None
  end.
Definition with_exit := define_exit library_symbols_of library_env library_heap library_registers.
Definition exit_env : genv := Eval vm_compute in match with_exit with Some (G, _, _) => G | None => GEnv [] [] end.
Definition exit_heap : heap := Eval vm_compute in match with_exit with Some (_, h, _) => h | None => [] end.
Lemma exit_is_defined : with_exit = Some (exit_env, exit_heap, library_registers).
Proof. vm_compute. reflexivity. Qed.
(** The value of exit *)
Definition exit_value : val := Eval vm_compute in
  match index_of (text_of "exit") library_symbols_of with
  | Some i => match assq i (scope exit_env) with
              | Some n => match nth_error (cells exit_env) n with Some (GVal v) => v | _ => VNil end
              | None => VNil
              end
  | None => VNil
  end.

Definition exit_code : code := Eval vm_compute in
  match exit_value with VPtr p => match nth_error exit_heap p with Some (OClosure c _) => c | _ => [] end | _ => [] end.

(** Programs that have this exit: what they note, until they end or exit.  A form that
    throws ends the program (emergency-exit throws a number, which nothing in
    environment.cpp:187-209 catches; main.cpp ends with it). *)
Fixpoint run_to (fuel : nat) (st : state) : option val * state :=
  match fuel with
  | O => (None, st)
  | S fuel => match step library_primitive st with
              | Next st => run_to fuel st
              | Halt v st => (Some v, st)
              | _ => (None, st)
              end
  end.
Fixpoint until_exit (fuel : nat) (G : genv) (h : heap) (a : list val) (fs : list form) : list val * heap * bool :=
  match fs with
  | [] => (a, h, true)
  | f :: fs =>
    match compile un ud fuel G f with
    | GOk c G =>
      match run_to fuel (St [] VNil c [] h (cells G) a) with
      | (Some u, st) => until_exit fuel (GEnv (scope G) (st_g st)) (st_h st) (st_a st) fs
      | (None, st) => (st_a st, st_h st, false)
      end
    | _ => (a, h, false)
    end
  end.
(** The program after the texts of the library, of note and of this exit.  [false] when
    it has ended before its last form. *)
Definition exit_notes (text : string) : option (list name * bool) :=
  let ls := read_data (String.append library_text note_text) in
  let ps := read_data text in
  let symbols := library_symbols (ls ++ ps)%list in
  let forms ds := fold_right (fun d r => ob (expand symbols 1000 [] d) (fun f => ob r (fun fs => Some (f :: fs)))) (Some []) ds in
  ob (forms ls) (fun lf => ob (forms ps) (fun pf =>
  ob (load_all un ud library_primitive (100 * 100) (GEnv (first_scope symbols) (first_cells symbols)) (first_heap symbols) library_registers lf) (fun r =>
  let '(G, h, a) := r in
  ob (define_exit symbols G h a) (fun r =>
  let '(G, h, a) := r in
  let '(a, h, b) := until_exit (100 * 100) G h a pf in
  Some (rev (symbol_list symbols h 100 (nth 3 a VNil)), b))))).
