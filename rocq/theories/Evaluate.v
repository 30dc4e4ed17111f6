(** Model of environment::evaluate (src/kernel/environment.cpp:29-69) on forms that need no
    expansion, and of some of the procedures of src/kernel/boot.cpp as primitives of the
    machine. *)
From Coq Require Import ZArith List Bool.
From Verif Require Import Machine Generator.
Import ListNotations.

(** boolean.cpp: #t is the immediate true (NanBox.v) *)
Definition t_ : val := VImm 1.
Definition make_bool (b : bool) : val := if b then t_ else f_.

(** The procedures, numbered.  As in the C++, an argument list that is too short or an
    argument that is not a pair is not detected; where the C++ would read something
    that is not a pair, the model throws *)
Definition primitive (n : nat) (h : heap) (xs : val) : presult :=
  let arg := head h xs in
  let arg1 k := match arg 0 with Some x => k x | None => PThrow h end in
  let arg2 k := match arg 0, arg 1 with Some x, Some y => k x y | _, _ => PThrow h end in
  match n with
  | 0 => arg2 (fun x y => let '(p, h) := alloc h (OPair x y) in PVal h p)                             (* cons, boot.cpp:272 *)
  | 1 => arg1 (fun x => match car h x with Some y => PVal h y | None => PThrow h end)                 (* car, 275 *)
  | 2 => arg1 (fun x => match cdr h x with Some y => PVal h y | None => PThrow h end)                 (* cdr, 276 *)
  | 3 => arg2 (fun x y => match set_car h x y with Some h => PVal h y | None => PThrow h end)         (* set-car!, 305 *)
  | 4 => arg2 (fun x y => match set_cdr h x y with Some h => PVal h y | None => PThrow h end)         (* set-cdr!, 306 *)
  | 5 => arg2 (fun x y => PVal h (make_bool (val_eqb x y)))                                           (* eq?, 115 *)
  | 6 => arg1 (fun x => PVal h (make_bool (match callee h x with Some (OPair _ _) => true | _ => false end)))  (* pair?, 270 *)
  | 7 => arg1 (fun x => PVal h (make_bool (val_eqb x VNil)))                                          (* null?, 138 *)
  | 8 => PVal h xs                                                                                    (* list, 140 *)
  | 9 => arg1 (fun x => PVal h (make_bool (match callee h x with Some (OClosure _ _ | OContinuation _ _ _ _ | OProcedure _) => true | _ => false end)))  (* procedure?, 334 *)
  | _ => PThrow h
  end.

Section Evaluate.
Variable unspecified undefined : val.
Variable proc : nat -> heap -> val -> presult.
(** execute(compile(expression)), environment.cpp:68: the value, the environment, the heap and the registers a
    afterwards; [None] when the fuel does not suffice or no value is returned *)
Definition evaluate (fuel : nat) (G : genv) (h : heap) (a : list val) (f : form) : option (val * genv * heap * list val) :=
  match compile unspecified undefined fuel G f with
  | GOk c G =>
    match execute proc fuel c h (cells G) a with
    | Some (Halt u st) => Some (u, GEnv (scope G) (st_g st), st_h st, st_a st)
    | _ => None
    end
  | _ => None
  end.
(** a program: environment::load, environment.cpp:187-209, evaluates the forms one after the other *)
Fixpoint evaluate_all (fuel : nat) (G : genv) (h : heap) (a : list val) (fs : list form) : option (list val * genv * heap) :=
  match fs with
  | [] => Some ([], G, h)
  | f :: fs =>
    match evaluate fuel G h a f with
    | Some (u, G, h, a) =>
      match evaluate_all fuel G h a fs with Some (us, G, h) => Some (u :: us, G, h) | None => None end
    | None => None
    end
  end.
End Evaluate.
