(** Model of the code generator: src/kernel/generator.cpp and the functions identify and
    generate of src/kernel/syntactic_environment.cpp.

    A form is the result of macro expansion (expander.cpp), written as a tree whose nodes carry the
    address of the object they stand for; a part of a form that the generator does not
    look into (the datum of a quote) can be an [FAtom].  Identifiers are symbols,
    compared by address; aliases (syntactic closures), macros among the
    formals and define-syntax are not modelled here.  Where the C++ evaluates two arguments of
    a call in an unspecified order, the model takes the one written first first. *)
From Coq Require Import ZArith List Bool.
From Verif Require Import Machine.
Import ListNotations.

Inductive form := FAtom (v : val) | FId (x : nat) | FPair (p : nat) (a d : form).
(** the object a form stands for *)
Definition addr (f : form) : val :=
  match f with FAtom v => v | FId x => VPtr x | FPair p _ _ => VPtr p end.

(** identity.hpp:24-60, and f for an identifier that is not bound *)
Inductive identity := IdRelative (i j : nat) | IdVariadic (i j : nat) | IdAbsolute (g : nat) | IdNone.

(** the free variables of a syntactic environment (its cdr): an association list from identifiers to
    global cells; and the cells *)
Record genv := GEnv { scope : list (nat * nat); cells : list gval }.

Fixpoint assq (x : nat) (l : list (nat * nat)) : option nat :=
  match l with
  | [] => None
  | (y, n) :: l => if Nat.eqb y x then Some n else assq x l
  end.

(** syntactic_environment.cpp:137-156, the inner loop.  A symbol's cdr is null
    (collector.hpp:77), so the loop ends after a rest variable; for any other atom the behaviour of
    the C++ is undefined *)
Fixpoint identify_formals (i j : nat) (formals : form) (x : nat) : option identity :=
  match formals with
  | FPair _ a d =>
    match a with
    | FId y => if Nat.eqb y x then Some (IdRelative i j) else identify_formals i (S j) d x
    | _ => identify_formals i (S j) d x
    end
  | FId y => if Nat.eqb y x then Some (IdVariadic i j) else None
  | FAtom _ => None
  end.
(** syntactic_environment.cpp:135-160, the outer loop *)
Fixpoint identify_bound (i : nat) (bv : list form) (x : nat) : option identity :=
  match bv with
  | [] => None
  | formals :: bv =>
    match identify_formals i 0 formals x with
    | Some r => Some r
    | None => identify_bound (S i) bv x
    end
  end.
(** syntactic_environment.cpp:130-170 *)
Definition identify_const (G : genv) (bv : list form) (x : nat) : identity :=
  match identify_bound 0 bv x with
  | Some r => r
  | None => match assq x (scope G) with Some n => IdAbsolute n | None => IdNone end
  end.
Section Undefined.
(** ghost.cpp:27-29: the objects unspecified and undefined *)
Variable unspecified undefined : val.
(** syntactic_environment.cpp:172-201 *)
Definition identify (G : genv) (bv : list form) (x : nat) : identity * genv :=
  match identify_const G bv x with
  | IdNone => (IdAbsolute (length (cells G)),
               GEnv ((x, length (cells G)) :: scope G) (cells G ++ [GVal undefined]))
  | r => (r, G)
  end.

(** the test of syntactic_environment.cpp:119-122 *)
Definition syntax_of (G : genv) (bv : list form) (a : form) : option keyword :=
  match a with
  | FId x =>
    match identify_const G bv x with
    | IdAbsolute n => match nth_error (cells G) n with Some (GSyntax k) => Some k | _ => None end
    | _ => None
    end
  | _ => None
  end.

(** result: code and global cells, the error of generator.cpp:230, a form that is not a list
    where one is needed (undefined behaviour), or out of fuel *)
Inductive gres := GOk (c : code) (G : genv) | GError | GUb | GFuel.
Definition gbind (m : gres) (k : code -> genv -> gres) : gres :=
  match m with GOk c G => k c G | r => r end.
(** car and cdr of a form; map(car, x) and map(cadr, x) of generator.cpp:176, 180 (list.hpp:104-117) *)
Definition fcar (f : form) : option form := match f with FPair _ a _ => Some a | _ => None end.
Definition fcdr (f : form) : option form := match f with FPair _ _ d => Some d | _ => None end.
Definition fcadr (f : form) : option form := match fcdr f with Some d => fcar d | None => None end.
Fixpoint fmap (sel : form -> option form) (f : form) : option form :=
  match f with
  | FPair p a d =>
    match sel a, fmap sel d with Some a, Some d => Some (FPair p a d) | _, _ => None end
  | _ => Some (FAtom VNil)
  end.
Definition is_nil (f : form) : bool := match f with FAtom VNil => true | _ => false end.

Definition load (i : identity) (c : code) : code :=
  match i with
  | IdRelative i j => ILoadRelative i j :: c
  | IdVariadic i j => ILoadVariadic i j :: c
  | IdAbsolute n => ILoadAbsolute n :: c
  | IdNone => c
  end.
Definition store (i : identity) (c : code) : code :=
  match i with
  | IdRelative i j => IStoreRelative i j :: c
  | IdVariadic i j => IStoreVariadic i j :: c
  | IdAbsolute n => IStoreAbsolute n :: c
  | IdNone => c
  end.

Fixpoint generate (fuel : nat) (G : genv) (f : form) (bv : list form) (c : code) (t : bool) : gres :=
  match fuel with
  | O => GFuel
  | S fuel =>
    match f with
    (* syntactic_environment.cpp:96-117 *)
    | FId x => let '(i, G) := identify G bv x in GOk (load i c) G
    | FAtom v => GOk (ILoadConstant v :: c) G
    | FPair _ a d =>
      (* syntactic_environment.cpp:118-127 *)
      match syntax_of G bv a with
      | None =>
        (* call, generator.cpp:45-54 *)
        gbind (generate fuel G a bv (if t then [ITailCall] else ICall :: c) false)
              (fun c G => operand fuel G d bv c)
      | Some k => generate_syntax fuel k G d bv c t
      end
    end
  end
with generate_syntax (fuel : nat) (k : keyword) (G : genv) (f : form) (bv : list form) (c : code) (t : bool) : gres :=
  match fuel with
  | O => GFuel
  | S fuel =>
    match k with
    | KQuote => (* generator.cpp:32-37 *)
      match fcar f with Some a => GOk (ILoadConstant (addr a) :: c) G | None => GUb end
    | KLambda => lambda fuel G f bv c
    | KIf => (* generator.cpp:106-141 *)
      match f with
      | FPair _ a (FPair _ b rest) =>
        let k := if t then c else [IJoin] in
        gbind (generate fuel G b bv k t) (fun c1 G =>
        gbind (match rest with
               | FPair _ x _ => generate fuel G x bv k t
               | FAtom VNil => GOk [ILoadConstant unspecified; if t then IReturn else IJoin] G
               | _ => GUb
               end) (fun c2 G =>
        generate fuel G a bv (if t then [ITailSelect c1 c2] else ISelect c1 c2 :: c) false))
      | _ => GUb
      end
    | KSet => (* generator.cpp:143-170 *)
      match f with
      | FPair _ (FId x) (FPair _ a _) =>
        let '(i, G) := identify G bv x in generate fuel G a bv (store i c) false
      | _ => GUb
      end
    | KLetrec => (* generator.cpp:172-187 *)
      match f with
      | FPair p b body =>
        match fmap fcar b, fmap fcadr b with
        | Some formals, Some inits =>
          gbind (lambda fuel G (FPair p formals body) bv (if t then [ITailLetrec] else ILetrec :: c)) (fun c G =>
          gbind (operand fuel G inits (formals :: bv) c) (fun c G => GOk (IDummy :: c) G))
        | _, _ => GUb
        end
      | _ => GUb
      end
    | KBegin => sequence fuel G f bv c t
    | KDefine => (* generator.cpp:222-239 *)
      match bv with
      | [] =>
        match f with
        | FPair _ (FId x) rest =>
          let '(i, G) := identify G bv x in
          match rest with
          | FPair _ a _ => generate fuel G a bv (store i c) false
          | FAtom VNil => generate fuel G (FAtom unspecified) bv (store i c) false
          | _ => GUb
          end
        | _ => GUb
        end
      | _ => GError
      end
    | KCallCC => (* generator.cpp:256-267 *)
      match f with
      | FPair _ a _ =>
        gbind (generate fuel G a bv [ITailCall] t) (fun c' G => GOk (ILoadContinuation c :: c') G)
      | _ => GUb
      end
    | KCurrent => (* generator.cpp:269-273 *)
      match f with
      | FPair _ (FAtom (VImm i)) _ => GOk (ICurrent (Z.to_nat i) :: c) G
      | _ => GUb
      end
    | KInstall => (* generator.cpp:275-281 *)
      match f with
      | FPair _ (FAtom (VImm i)) (FPair _ a _) => generate fuel G a bv (IInstall (Z.to_nat i) :: c) false
      | _ => GUb
      end
    end
  end
with lambda (fuel : nat) (G : genv) (f : form) (bv : list form) (c : code) : gres :=
  (* generator.cpp:74-82 *)
  match fuel with
  | O => GFuel
  | S fuel =>
    match f with
    | FPair _ formals b =>
      gbind (body fuel G b (formals :: bv) [IReturn]) (fun c' G => GOk (ILoadClosure c' :: c) G)
    | _ => GUb
    end
  end
with operand (fuel : nat) (G : genv) (f : form) (bv : list form) (c : code) : gres :=
  (* generator.cpp:56-72 *)
  match fuel with
  | O => GFuel
  | S fuel =>
    match f with
    | FPair _ a d => gbind (generate fuel G a bv (ICons :: c) false) (fun c G => operand fuel G d bv c)
    | _ => generate fuel G f bv c false
    end
  end
with body (fuel : nat) (G : genv) (f : form) (bv : list form) (c : code) : gres :=
  (* generator.cpp:84-104 *)
  match fuel with
  | O => GFuel
  | S fuel =>
    match f with
    | FPair _ a d =>
      if is_nil d then generate fuel G a bv c true
      else gbind (body fuel G d bv c) (fun c G => generate fuel G a bv (IDrop :: c) false)
    | _ => GUb
    end
  end
with sequence (fuel : nat) (G : genv) (f : form) (bv : list form) (c : code) (t : bool) : gres :=
  (* generator.cpp:189-220 *)
  match fuel with
  | O => GFuel
  | S fuel =>
    match f with
    | FPair _ a d =>
      if is_nil d then generate fuel G a bv c t
      else gbind (generate fuel G a bv [] false) (fun c1 G =>
           gbind (sequence fuel G d bv c t) (fun c2 G => GOk (c1 ++ IDrop :: c2) G))
    | _ => GUb
    end
  end.

(** syntactic_environment.cpp:31-34, after expansion, at top level *)
Definition compile (fuel : nat) (G : genv) (f : form) : gres := generate fuel G f [] [IStop] false.
End Undefined.
