(** What the machine does with exceptions: the catch clauses of execute
    (dynamic_environment.cpp:461-495), and the loops that evaluate a program around it.

    Simplifications.  An error of a procedure other than throw is an object without
    content; the clause for std::exception makes such an object too and is the same.
    Exceptions of the C++ run time that end the process are left out. *)
From Coq Require Import String ZArith List Bool.
From Verif Require Import Machine Generator Evaluate LibraryCode ProgramText.
Import ListNotations.

(** the number of the procedure throw, boot.cpp:125 *)
Definition throw_number : nat := 19.
(** the argument of throw if the machine is about to call it (dynamic_environment.cpp:205-210, 255-261) *)
Definition thrown (st : state) : option val :=
  match st with
  | St (x :: xs :: _) _ (ICall :: _) _ h _ _ | St (x :: xs :: _) _ (ITailCall :: _) _ h _ _ =>
    match callee h x with
    | Some (OProcedure n) => if n =? throw_number then head h xs 0 else None
    | _ => None
    end
  | _ => None
  end.
Inductive ending := Finished (v : val) (st : state) | Uncaught (x : val) (st : state) | Undefined.

Section Catch.
Variable proc : nat -> heap -> val -> presult.
(** dynamic_environment.hpp:49: what kernel-exception-handler-set! was called with *)
Variable handler : val.
(** dynamic_environment.cpp:471-484: the handler is applied, with new stacks, to the error *)
Definition deliver (st : state) (h : heap) : state :=
  let '(x, h) := alloc h (OOther 0) in
  let '(xs, h) := alloc h (OPair x VNil) in
  St [handler; xs] VNil [ICall; IStop] [] h (st_g st) (st_a st).
(** one turn of the fetch loop, with the clauses of 461-495; an object that throw has thrown
    leaves execute *)
Definition step_caught (st : state) : state + ending :=
  match step proc st with
  | Next st => inl st
  | Halt v st => inr (Finished v st)
  | Throw h => match thrown st with Some x => inr (Uncaught x st) | None => inl (deliver st h) end
  | Stuck => inr Undefined
  end.
Fixpoint run_caught (fuel : nat) (st : state) : option ending :=
  match fuel with
  | O => None
  | S fuel => match step_caught st with inl st => run_caught fuel st | inr r => Some r end
  end.
End Catch.

(** ** Programs *)
Section Load.
  Variable unspecified undefined : val.
  Variable proc : nat -> heap -> val -> presult.
  Variable raise_id : option nat.
  (** The handler is the value of raise (srfi-34.ss:69) *)
  Definition handler_of (G : genv) : val :=
    match raise_id with
    | Some i => match assq i (scope G) with Some n => match nth_error (cells G) n with Some (GVal v) => v | _ => VNil end | None => VNil end
    | None => VNil
    end.
  (** environment::load (environment.cpp:187-203) leaves the loop at the first uncaught
      exception, interact (main.cpp:53-63) goes on with the next form; the registers are
      those of the environment, which nothing resets.  The last components are the
      objects that were not caught *)
  Fixpoint load_caught (interactive : bool) (fuel : nat) (G : genv) (h : heap) (a : list val) (fs : list form) : option (genv * heap * list val * list val) :=
    match fs with
    | [] => Some (G, h, a, [])
    | f :: fs =>
      match compile unspecified undefined fuel G f with
      | GOk c G =>
        match run_caught proc (handler_of G) fuel (St [] VNil c [] h (cells G) a) with
        | Some (Finished _ st) => load_caught interactive fuel (GEnv (scope G) (st_g st)) (st_h st) (st_a st) fs
        | Some (Uncaught x st) =>
          let G := GEnv (scope G) (st_g st) in
          if interactive then
            match load_caught interactive fuel G (st_h st) (st_a st) fs with
            | Some (G, h, a, xs) => Some (G, h, a, x :: xs)
            | None => None
            end
          else Some (G, st_h st, st_a st, [x])
        | _ => None
        end
      | _ => None
      end
    end.
  Definition load_text_caught (interactive : bool) (s : string) (a : list val) : option (list name * genv * heap * list val * list val) :=
    let ds := read_data s in
    let symbols := library_symbols ds in
    ob (fold_right (fun d r => ob (expand symbols 1000 [] d) (fun f => ob r (fun fs => Some (f :: fs)))) (Some []) ds) (fun fs =>
    match load_caught interactive (100 * 100) (GEnv (first_scope symbols) (first_cells symbols)) (first_heap symbols) a fs with
    | Some (G, h, a, xs) => Some (symbols, G, h, a, xs)
    | None => None
    end).
End Load.
(** What a program notes, and which objects are not caught, with the library in front of it.  The first
    symbols of any text are those of the library *)
Definition raise_symbol : option nat := Eval vm_compute in index_of (text_of "raise") library_symbols_of.
Definition ended_of (r : option (list name * genv * heap * list val * list val)) : option (list name * list name) :=
  match r with
  | Some (symbols, _, h, a, xs) => Some (rev (symbol_list symbols h 100 (nth 3 a VNil)), map (noted symbols) xs)
  | None => None
  end.
Definition outcome_of (interactive : bool) (text : string) : option (list name * list name) :=
  ended_of (load_text_caught un ud library_primitive raise_symbol interactive (library_text ++ note_text ++ text) library_registers).
