(** Model of read-with-shared-structure (read/ss), library/srfi-38.ss:129-352, from the tokens on:
    read-token with the procedures it calls (srfi-38.ss:133-260) is left out, a text is the list of
    its tokens as in Labels.v, without the abbreviations of quote, quasiquote and unquote
    (srfi-38.ss:285-288), and a text that ends too early fails (srfi-38.ss:256-260).

    A thunk (lambda () obj) of srfi-38.ss:308 is a procedure on the heap.  Its node is the node
    [Label] of Labels.v; no other procedure is on the heap while reading.  The variable obj that the
    thunk refers to is found with the address of the thunk. *)
From Coq Require Import ZArith List Bool Arith.
From Verif Require Import Lists Labels.
Import ListNotations.

(** The heap, parts-alist (srfi-38.ss:262-266), and the variables of the letrecs that are done *)
Record reader := Reader { nodes : store; parts_alist : list (nat * nat); variables : list (nat * val) }.
(** make an object *)
Definition add_node (s : reader) (o : node) : nat * reader :=
  (length (nodes s), Reader (nodes s ++ [o]) (parts_alist s) (variables s)).
(** procedure? *)
Definition procedurep (h : store) (v : val) : bool :=
  match v with Ptr p => match nth_error h p with Some (Label _) => true | _ => false end | _ => false end.
(** assv on parts-alist is [declared] of Labels.v *)

Inductive result := Object (v : val) | Error.
(** What is being done: finish-reading-object of a token (srfi-38.ss:277-311), the loop read-decls
    of a token (srfi-38.ss:292-311) with starting-alist, or read-list-tail (srfi-38.ss:313-325) *)
Inductive task := Finish (t : token) | Decls (start : list (nat * nat)) (t : token) | Tail.
Fixpoint read_part (fuel : nat) (k : task) (s : reader) (ts : list token) : res (result * reader * list token) :=
  match fuel with
  | O => Loop
  | S fuel =>
    match k with
    | Finish t =>
      match t with
      | TAtom v => Done (Object v, s, ts)
      | TOpen => read_part fuel Tail s ts
      | TVec =>
        '(r, s, ts) <- read_part fuel Tail s ts;
        match r with
        | Object v => vs <- items (S (length (nodes s))) (nodes s) v;
                      let '(p, s) := add_node s (Vector vs) in Done (Object (Ptr p), s, ts)
        | Error => Done (Error, s, ts)
        end
      | TClose | TDot => Done (Error, s, ts)
      | TDecl _ | TUse _ => read_part fuel (Decls (parts_alist s) t) s ts
      end
    | Decls start t =>
      match t with
      | TUse n => Done (match declared n start with Some p => Object (Ptr p) | None => Error end, s, ts)
      | TDecl n =>
        match declared n (parts_alist s) with
        | Some _ => Done (Error, s, ts)
        | None =>
          let '(p, s) := add_node s (Label n) in
          match ts with
          | [] => Done (Error, s, ts)
          | t :: ts =>
            '(r, s, ts) <- read_part fuel (Decls start t) (Reader (nodes s) ((n, p) :: parts_alist s) (variables s)) ts;
            match r with
            | Object v => Done (Object v, Reader (nodes s) (parts_alist s) ((p, v) :: variables s), ts)
            | Error => Done (Error, s, ts)
            end
          end
        end
      | _ => read_part fuel (Finish t) s ts
      end
    | Tail =>
      match ts with
      | [] => Done (Error, s, ts)
      | TClose :: ts => Done (Object Nil, s, ts)
      | TDot :: [] => Done (Error, s, [])
      | TDot :: t :: ts =>
        '(r, s, ts) <- read_part fuel (Finish t) s ts;
        match r, ts with
        | Object v, TClose :: ts => Done (Object v, s, ts)
        | _, _ => Done (Error, s, ts)
        end
      | t :: ts =>
        '(r, s, ts) <- read_part fuel (Finish t) s ts;
        match r with
        | Object a =>
          '(r, s, ts) <- read_part fuel Tail s ts;
          match r with
          | Object d => let '(p, s) := add_node s (Cons a d) in Done (Object (Ptr p), s, ts)
          | Error => Done (Error, s, ts)
          end
        | Error => Done (Error, s, ts)
        end
      end
    end
  end.

(** The variable of a thunk; None: not yet initialised *)
Fixpoint variable (p : nat) (xs : list (nat * val)) : option val :=
  match xs with [] => None | (q, v) :: xs => if Nat.eqb q p then Some v else variable p xs end.
(** unthunk, srfi-38.ss:331-333 *)
Fixpoint unthunk (fuel : nat) (h : store) (xs : list (nat * val)) (v : val) : res val :=
  match fuel with
  | O => Loop
  | S fuel =>
    match v with
    | Ptr p => match variable p xs with
               | Some x => if procedurep h x then unthunk fuel h xs x else Done x
               | None => Ub
               end
    | _ => Ub
    end
  end.
(** The loop over the elements of a vector, srfi-38.ss:345-351; f is fill-in-parts *)
Fixpoint fill_items (f : store -> val -> res store) (look : store -> val -> res val) (p : nat) (is : list nat) (h : store) : res store :=
  match is with
  | [] => Done h
  | i :: is =>
    match nth_error h p with
    | Some (Vector vs) =>
      match nth_error vs i with
      | Some x =>
        h <- (if procedurep h x then y <- look h x; Done (update h p (Vector (firstn i vs ++ y :: skipn (S i) vs))) else f h x);
        fill_items f look p is h
      | None => Ub
      end
    | _ => Ub
    end
  end.
(** fill-in-parts, srfi-38.ss:336-351 *)
Fixpoint fill_in_parts (fuel : nat) (xs : list (nat * val)) (h : store) (v : val) : res store :=
  match fuel with
  | O => Loop
  | S fuel =>
    match v with
    | Ptr p =>
      match nth_error h p with
      | Some (Cons a d) =>
        h <- (if procedurep h a then y <- unthunk fuel h xs a; Done (update h p (Cons y d)) else fill_in_parts fuel xs h a);
        match nth_error h p with
        | Some (Cons a d) => if procedurep h d then y <- unthunk fuel h xs d; Done (update h p (Cons a y)) else fill_in_parts fuel xs h d
        | _ => Ub
        end
      | Some (Vector vs) => fill_items (fun h x => fill_in_parts fuel xs h x) (fun h x => unthunk fuel h xs x) p (seq 0 (length vs)) h
      | _ => Done h
      end
    | _ => Done h
    end
  end.
(** read-with-shared-structure, srfi-38.ss:129-352: the object, the heap, and what is left of the text *)
Definition read_shared (fuel : nat) (h : store) (ts : list token) : res (result * store * list token) :=
  match ts with
  | [] => Done (Error, h, [])           (* the end-of-file object *)
  | t :: ts =>
    '(r, s, ts) <- read_part fuel (Finish t) (Reader h [] []) ts;
    match r with
    | Object v => h <- fill_in_parts fuel (variables s) (nodes s) v; Done (Object v, h, ts)
    | Error => Done (Error, nodes s, ts)
    end
  end.
