(** Model of the virtual machine: include/meevax/kernel/instruction.hpp and
    src/kernel/dynamic_environment.cpp (execute, apply).

    Simplifications.  The heap is a list of objects, an address is a position in it and
    allocation appends; collections are modelled in Collector.v.  The value stack s, the dump d
    and the code c are Coq lists: in the C++ they are lists of pairs, of which only the top
    pair of s is ever written (secd_cons, dynamic_environment.cpp:359-360).
    The environment e and the argument lists are heap objects, because closures share them
    and assignment writes into them.  A primitive procedure is a function of the heap and
    of the argument list, given by the parameter [proc]; what happens after an exception
    (dynamic_environment.cpp:461-495) is not modelled here.  Assertions are taken to be disabled. *)
From Coq Require Import ZArith List Bool.
Import ListNotations.

(** an object handle: the empty list, an immediate by its bits, a heap object (NanBox.v) *)
Inductive val := VNil | VImm (bits : Z) | VPtr (p : nat).

(** instruction.hpp:24-49 with the operands that follow each instruction in the code list:
    an absolute identity is the index of a global cell, a relative or variadic identity is
    a pair of indices (identity.hpp:24-50) *)
Inductive instr :=
| ILoadAbsolute (g : nat)
| ILoadRelative (i j : nat)
| ILoadVariadic (i j : nat)
| ILoadConstant (v : val)
| ILoadClosure (c : list instr)
| ILoadContinuation (c : list instr)
| ICurrent (i : nat)
| ISelect (c1 c2 : list instr)
| ITailSelect (c1 c2 : list instr)
| IJoin
| ICall
| ITailCall
| IDummy
| ILetrec
| ITailLetrec
| IReturn
| ICons
| IDrop
| IStoreAbsolute (g : nat)
| IStoreRelative (i j : nat)
| IStoreVariadic (i j : nat)
| IInstall (i : nat)
| IStop.
Definition code := list instr.

(** what the dump holds: a stack, an environment, or code (dynamic_environment.cpp:173, 210) *)
Inductive ditem := DS (s : list val) | DE (e : val) | DC (c : code).
Definition dump := list ditem.

(** pair.hpp, closure.hpp, continuation.hpp, procedure.hpp; [OOther] stands for every other class *)
Inductive obj :=
| OPair (a d : val)
| OClosure (c : code) (e : val)
| OContinuation (s : list val) (e : val) (c : code) (d : dump)
| OProcedure (n : nat)
| OOther (n : nat).
Definition heap := list obj.

(** the cdr of an absolute: a syntax object or any other value (syntactic_environment.cpp:333-360, 36-42) *)
Inductive keyword := KBegin | KCallCC | KCurrent | KDefine | KIf | KInstall | KLambda | KLetrec | KQuote | KSet.
Inductive gval := GSyntax (k : keyword) | GVal (v : val).

(** the registers s, e, c, d, a (dynamic_environment.cpp:47-49, dynamic_environment.hpp:34),
    the heap and the global cells *)
Record state := St { st_s : list val; st_e : val; st_c : code; st_d : dump; st_h : heap; st_g : list gval; st_a : list val }.

(** boolean.cpp: the object f is the immediate false (NanBox.v: VBool false has payload 0) *)
Definition f_ : val := VImm 0.

(** object != f compares the words (comparator.hpp) *)
Definition val_eqb (x y : val) : bool :=
  match x, y with
  | VNil, VNil => true
  | VImm a, VImm b => Z.eqb a b
  | VPtr p, VPtr q => Nat.eqb p q
  | _, _ => false
  end.

(** car, cdr (pair.hpp:76-77): [None] on something that is not a pair.  The C++ does not check
    (object.hpp:113-117): on an immediate or the empty list the behaviour is undefined *)
Definition car (h : heap) (x : val) : option val :=
  match x with VPtr p => match nth_error h p with Some (OPair a _) => Some a | _ => None end | _ => None end.
Definition cdr (h : heap) (x : val) : option val :=
  match x with VPtr p => match nth_error h p with Some (OPair _ d) => Some d | _ => None end | _ => None end.
Fixpoint update {A} (l : list A) (n : nat) (x : A) : list A :=
  match l, n with
  | [], _ => []
  | _ :: r, O => x :: r
  | y :: r, S n => y :: update r n x
  end.
(** car(x) = v, cdr(x) = v *)
Definition set_car (h : heap) (x v : val) : option heap :=
  match x with VPtr p => match nth_error h p with Some (OPair _ d) => Some (update h p (OPair v d)) | _ => None end | _ => None end.
Definition set_cdr (h : heap) (x v : val) : option heap :=
  match x with VPtr p => match nth_error h p with Some (OPair a _) => Some (update h p (OPair a v)) | _ => None end | _ => None end.
(** tail, head: list.hpp:68-76 *)
Fixpoint tail (h : heap) (x : val) (n : nat) : option val :=
  match n with
  | O => Some x
  | S n => match cdr h x with Some y => tail h y n | None => None end
  end.
Definition head (h : heap) (x : val) (n : nat) : option val :=
  match tail h x n with Some y => car h y | None => None end.
Definition obind {A B} (m : option A) (k : A -> option B) : option B :=
  match m with Some a => k a | None => None end.
(** head(head(e, i), j) = v: the reference is to the car of a pair
    (dynamic_environment.cpp:405) *)
Definition store_relative (h : heap) (e : val) (i j : nat) (v : val) : option heap :=
  obind (head h e i) (fun xs => obind (tail h xs j) (fun y => set_car h y v)).
(** tail(head(e, i), j) = v: the reference is to the car of the environment pair when j is
    zero and to the cdr of the preceding pair otherwise (dynamic_environment.cpp:429) *)
Definition store_variadic (h : heap) (e : val) (i j : nat) (v : val) : option heap :=
  match j with
  | O => obind (tail h e i) (fun y => set_car h y v)
  | S j => obind (head h e i) (fun xs => obind (tail h xs j) (fun y => set_cdr h y v))
  end.
(** cons, pair.hpp:52-69; make<closure>, make<continuation> *)
Definition alloc (h : heap) (o : obj) : val * heap := (VPtr (length h), h ++ [o]).

(** result of one instruction: the next state, the value returned by secd_stop, the exception
    thrown when the callee is not applicable or by a primitive procedure, or undefined
    behaviour (something that is not there is taken from s, e, c or d) *)
Inductive outcome := Next (st : state) | Halt (v : val) (st : state) | Throw (h : heap) | Stuck.
(** result of a primitive procedure, procedure.hpp *)
Inductive presult := PVal (h : heap) (v : val) | PThrow (h : heap).

Section Step.
Variable proc : nat -> heap -> val -> presult.

(** what secd_call and secd_tail_call find at the top of the stack
    (dynamic_environment.cpp:201, 251) *)
Definition callee (h : heap) (x : val) : option obj :=
  match x with VPtr p => nth_error h p | _ => None end.

(** dynamic_environment.cpp:54-459: one turn of the fetch loop *)
Definition step (st : state) : outcome :=
  let '(St s e c d h g a) := st in
  match c with
  | [] => Stuck
  | ILoadAbsolute n :: c =>                                     (* 59-69 *)
    match nth_error g n with
    | Some (GVal x) => Next (St (x :: s) e c d h g a)
    | _ => Stuck                       (* pushing a syntax object is not modelled *)
    end
  | ILoadRelative i j :: c =>                                   (* 71-96 *)
    match obind (head h e i) (fun xs => head h xs j) with
    | Some x => Next (St (x :: s) e c d h g a)
    | None => Stuck
    end
  | ILoadVariadic i j :: c =>                                   (* 98-123 *)
    match obind (head h e i) (fun xs => tail h xs j) with
    | Some x => Next (St (x :: s) e c d h g a)
    | None => Stuck
    end
  | ILoadConstant v :: c => Next (St (v :: s) e c d h g a)      (* 125-132 *)
  | ILoadClosure c' :: c =>                                     (* 134-143 *)
    let '(k, h) := alloc h (OClosure c' e) in Next (St (k :: s) e c d h g a)
  | ILoadContinuation c' :: c =>                                (* 145-154 *)
    let '(k, h) := alloc h (OContinuation s e c' d) in
    let '(l, h) := alloc h (OPair k VNil) in
    Next (St (l :: s) e c d h g a)
  | ICurrent i :: c =>                                          (* 156-164 *)
    match nth_error a i with
    | Some x => Next (St (x :: s) e c d h g a)
    | None => Stuck
    end
  | ISelect c1 c2 :: c =>                                       (* 166-176 *)
    match s with
    | x :: s => Next (St s e (if val_eqb x f_ then c2 else c1) (DC c :: d) h g a)
    | [] => Stuck
    end
  | ITailSelect c1 c2 :: _ =>                                   (* 178-188 *)
    match s with
    | x :: s => Next (St s e (if val_eqb x f_ then c2 else c1) d h g a)
    | [] => Stuck
    end
  | IJoin :: _ =>                                               (* 190-198 *)
    match d with
    | DC c :: d => Next (St s e c d h g a)
    | _ => Stuck
    end
  | ICall :: c =>                                               (* 200-248 *)
    match s with
    | x :: xs :: s =>
      match callee h x with
      | Some (OClosure c' e') =>
        let '(r, h) := alloc h (OPair xs e') in
        Next (St [] r c' (DS s :: DE e :: DC c :: d) h g a)
      | Some (OProcedure n) =>
        match proc n h xs with
        | PVal h v => Next (St (v :: s) e c d h g a)
        | PThrow h => Throw h
        end
      | Some (OContinuation s' e' c' d') =>
        match car h xs with
        | Some v => Next (St (v :: s') e' c' d' h g a)
        | None => Stuck
        end
      | _ => Throw h
      end
    | _ => Stuck
    end
  | ITailCall :: _ =>                                           (* 250-301 *)
    match s with
    | x :: xs :: _ =>
      match callee h x with
      | Some (OClosure c' e') =>
        let '(r, h) := alloc h (OPair xs e') in
        Next (St [] r c' d h g a)
      | Some (OProcedure n) =>
        match proc n h xs with
        | PVal h v =>
          match d with
          | DS s' :: DE e' :: DC c' :: d => Next (St (v :: s') e' c' d h g a)
          | _ => Stuck
          end
        | PThrow h => Throw h
        end
      | Some (OContinuation s' e' c' d') =>
        match car h xs with
        | Some v => Next (St (v :: s') e' c' d' h g a)
        | None => Stuck
        end
      | _ => Throw h
      end
    | _ => Stuck
    end
  | IDummy :: c =>                                              (* 303-310 *)
    let '(r, h) := alloc h (OPair VNil e) in Next (St s r c d h g a)
  | ILetrec :: c =>                                             (* 312-324 *)
    match s with
    | x :: xs :: s =>
      match callee h x with
      | Some (OClosure c' e') =>
        match set_car h e' xs, cdr h e with
        | Some h, Some e => Next (St [] e' c' (DS s :: DE e :: DC c :: d) h g a)
        | _, _ => Stuck
        end
      | _ => Stuck
      end
    | _ => Stuck
    end
  | ITailLetrec :: _ =>                                         (* 326-338 *)
    match s with
    | x :: xs :: _ =>
      match callee h x with
      | Some (OClosure c' e') =>
        match set_car h e' xs with
        | Some h => Next (St [] e' c' d h g a)
        | None => Stuck
        end
      | _ => Stuck
      end
    | _ => Stuck
    end
  | IReturn :: _ =>                                             (* 340-352 *)
    match s, d with
    | x :: _, DS s' :: DE e' :: DC c' :: d => Next (St (x :: s') e' c' d h g a)
    | _, _ => Stuck
    end
  | ICons :: c =>                                               (* 354-362 *)
    match s with
    | x :: y :: s => let '(p, h) := alloc h (OPair x y) in Next (St (p :: s) e c d h g a)
    | _ => Stuck
    end
  | IDrop :: c =>                                               (* 364-371 *)
    match s with
    | _ :: s => Next (St s e c d h g a)
    | [] => Stuck
    end
  | IStoreAbsolute n :: c =>                                    (* 373-385 *)
    match s with
    | x :: _ => if Nat.ltb n (length g) then Next (St s e c d h (update g n (GVal x)) a) else Stuck
    | [] => Stuck
    end
  | IStoreRelative i j :: c =>                                  (* 387-409 *)
    match s with
    | x :: _ => match store_relative h e i j x with Some h => Next (St s e c d h g a) | None => Stuck end
    | [] => Stuck
    end
  | IStoreVariadic i j :: c =>                                  (* 411-433 *)
    match s with
    | x :: _ => match store_variadic h e i j x with Some h => Next (St s e c d h g a) | None => Stuck end
    | [] => Stuck
    end
  | IInstall i :: c =>                                          (* 435-443 *)
    match s with
    | x :: _ => if Nat.ltb i (length a) then Next (St s e c d h g (update a i x)) else Stuck
    | [] => Stuck
    end
  | IStop :: _ =>                                               (* 449-459 *)
    match s with
    | x :: _ => Halt x st
    | [] => Stuck
    end
  end.

(** the fetch loop, dynamic_environment.cpp:47-460; [fuel] bounds the number of instructions *)
Fixpoint run (fuel : nat) (st : state) : option outcome :=
  match fuel with
  | O => None
  | S fuel => match step st with Next st => run fuel st | r => Some r end
  end.
(** execute(c), dynamic_environment.cpp:39-45 *)
Definition execute (fuel : nat) (c : code) (h : heap) (g : list gval) (a : list val) : option outcome :=
  run fuel (St [] VNil c [] h g a).
(** apply(f, xs), dynamic_environment.cpp:30-37 *)
Definition apply (fuel : nat) (x xs : val) (h : heap) (g : list gval) (a : list val) : option outcome :=
  run fuel (St [x; xs] VNil [ICall; IStop] [] h g a).
End Step.
