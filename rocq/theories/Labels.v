(** Model of datum labels: writing data with cycles and sharing (src/kernel/pair.cpp:36-111,
    src/kernel/vector.cpp:29-41), write-simple (src/kernel/textual_output_port.cpp:42-73),
    write-with-shared-structure (library/srfi-38.ss:36-127) and reading labels
    (src/kernel/textual_input_port.cpp:79-105, 309-360, 468-469, 553-572).

    A text is a list of tokens: the spelling of atoms and the blanks between tokens are left
    out (see Writer.v and Reader.v), and the number of a label is a natural number instead of
    its digits.  An object that is neither pair nor vector is a token by itself; reading it
    gives the same object back.  Values are those of Lists.v. *)
From Coq Require Import ZArith List Bool Arith.
From Verif Require Import Lists.
Import ListNotations.

(** The heap: pairs, vectors, strings by their lengths, datum labels of the reader
    (textual_input_port.cpp:79-87) and other objects *)
Inductive node := Cons (a d : val) | Vector (vs : list val) | Text (size : nat) | Other | Label (n : nat).
Definition store := list node.
(** The heap as the predicates of Lists.v see it *)
Definition flat (h : store) : heap :=
  map (fun o => match o with Cons a d => Obj true a d | _ => Obj false Nil Nil end) h.

Inductive token :=
| TAtom (v : val)                (* the external representation of an atom *)
| TOpen | TVec | TClose | TDot   (* (  #(  )  . *)
| TDecl (n : nat) | TUse (n : nat).   (* #n=  #n# *)

(** ** write *)
(** datum_labels::table, pair.cpp:45-68: None while no pair is being written to the stream *)
Definition table := list (nat * nat).
Fixpoint label_of (t : table) (p : nat) : option nat :=
  match t with [] => None | (q, n) :: t => if Nat.eqb q p then Some n else label_of t p end.
(** ~datum_labels, pair.cpp:57-63: the table is deleted with the outermost pair *)
Definition leave (before after : option table) : option table := match before with None => None | Some _ => after end.

(** A list of values, one after the other *)
Fixpoint each (f : option table -> val -> res (list token * option table)) (t : option table) (vs : list val)
  : res (list token * option table) :=
  match vs with
  | [] => Done ([], t)
  | v :: vs => '(ts, t1) <- f t v; '(us, t2) <- each f t1 vs; Done (ts ++ us, t2)
  end.

(** What is being written: a datum, the elements of a circular list up to the pair p where
    it began (circular_list_policy, iterator.hpp:37-42 and 85-106), or the rest of a list *)
Inductive mode := Whole | Ring (p : nat) | Rest.
(** operator << of pairs (pair.cpp:71-111), vectors (vector.cpp:29-41) and other values *)
Fixpoint write (fuel : nat) (m : mode) (h : store) (t : option table) (v : val) : res (list token * option table) :=
  match fuel with
  | O => Loop
  | S fuel =>
    match m with
    | Whole =>
      match v with
      | Nil => Done ([TOpen; TClose], t)
      | Imm _ => Done ([TAtom v], t)
      | Ptr p =>
        match nth_error h p with
        | None => Ub
        | Some (Cons a d) =>
          let l := match t with Some l => l | None => [] end in
          c <- is_circular_list (S (length h)) (flat h) d d;
          if c : bool then
            match label_of l p with
            | Some n => Done ([TUse n], t)
            | None =>
              let n := S (length l) in
              '(ts, t1) <- write fuel (Ring p) h (Some ((p, n) :: l)) v;
              Done (TDecl n :: TOpen :: ts ++ [TDot; TUse n; TClose], leave t t1)
            end
          else
            '(ts, t1) <- write fuel Whole h (Some l) a;
            '(us, t2) <- write fuel Rest h t1 d;
            Done (TOpen :: ts ++ us, leave t t2)
        | Some (Vector vs) =>
          '(ts, t1) <- each (write fuel Whole h) t vs; Done (TVec :: ts ++ [TClose], t1)
        | Some _ => Done ([TAtom v], t)
        end
      end
    | Ring p =>
      match v with
      | Ptr q =>
        match nth_error h q with
        | Some (Cons a d) =>
          '(ts, t1) <- write fuel Whole h t a;
          match d with
          | Ptr r => if Nat.eqb r p then Done (ts, t1)
                     else '(us, t2) <- write fuel (Ring p) h t1 d; Done (ts ++ us, t2)
          | _ => Done (ts, t1)   (* get() is a null pointer *)
          end
        | _ => Ub
        end
      | _ => Ub
      end
    | Rest =>
      match v with
      | Nil => Done ([TClose], t)
      | Imm _ => '(ts, t1) <- write fuel Whole h t v; Done (TDot :: ts ++ [TClose], t1)
      | Ptr q =>
        match nth_error h q with
        | Some (Cons a d) =>
          '(ts, t1) <- write fuel Whole h t a; '(us, t2) <- write fuel Rest h t1 d; Done (ts ++ us, t2)
        | _ => '(ts, t1) <- write fuel Whole h t v; Done (TDot :: ts ++ [TClose], t1)
        end
      end
    end
  end.
(** write, textual_output_port.cpp:37-40 *)
Definition write_datum (fuel : nat) (h : store) (v : val) : res (list token) :=
  '(ts, _) <- write fuel Whole h None v; Done ts.

(** ** write-simple *)
(** textual_output_port.cpp:42-73.  After the tail of a dotted list the loop goes on
    with its cdr: dereferencing an immediate value is undefined, and the cdr of an object that
    is not a pair is taken to be the empty list *)
Fixpoint write_simple (fuel : nat) (rest : bool) (h : store) (v : val) : res (list token) :=
  match fuel with
  | O => Loop
  | S fuel =>
    if rest then
      match v with
      | Nil => Done [TClose]
      | Imm _ => Ub
      | Ptr q =>
        match nth_error h q with
        | None => Ub
        | Some (Cons a d) => ts <- write_simple fuel false h a; us <- write_simple fuel true h d; Done (ts ++ us)
        | Some _ => ts <- write_simple fuel false h v; Done (TDot :: ts ++ [TClose; TClose])
        end
      end
    else
      match v with
      | Ptr p =>
        match nth_error h p with
        | Some (Cons a d) =>
          ts <- write_simple fuel false h a; us <- write_simple fuel true h d; Done (TOpen :: ts ++ us)
        | _ => write_datum fuel h v
        end
      | _ => write_datum fuel h v
      end
  end.

(** ** write-with-shared-structure, srfi-38.ss:36-127 *)
(** The second parts of the association list: #f, #t or a number *)
Inductive mark := F | T | N (n : nat).
(** The keys: a part of the datum, or the symbol dummy (None) *)
Definition alist := list (option val * mark).
(** assq *)
Fixpoint assq (v : val) (al : alist) : option mark :=
  match al with
  | [] => None
  | (Some w, m) :: al => if veq v w then Some m else assq v al
  | (None, _) :: al => assq v al
  end.
(** srfi-38.ss:49-52 *)
Definition interesting (h : store) (v : val) : bool :=
  match v with
  | Ptr p => match nth_error h p with
             | Some (Cons _ _) => true
             | Some (Vector (_ :: _)) => true
             | Some (Text (S _)) => true
             | _ => false
             end
  | _ => false
  end.
Fixpoint scans (f : alist -> val -> res alist) (al : alist) (vs : list val) : res alist :=
  match vs with [] => Done al | v :: vs => al <- f al v; scans f al vs end.
(** scan, srfi-38.ss:110-122 *)
Fixpoint scan (fuel : nat) (h : store) (al : alist) (v : val) : res alist :=
  match fuel with
  | O => Loop
  | S fuel =>
    if interesting h v then
      match assq v al with
      | Some F => Done ((Some v, T) :: al)
      | Some _ => Done al
      | None =>
        let al := (Some v, F) :: al in
        match v with
        | Ptr p => match nth_error h p with
                   | Some (Cons a d) => al <- scan fuel h al d; scan fuel h al a
                   | Some (Vector vs) => scans (scan fuel h) al vs
                   | _ => Done al
                   end
        | _ => Done al
        end
      end
    else Done al
  end.
(** (write obj outport) of a part that is not interesting *)
Definition plain (h : store) (v : val) : list token :=
  match v with
  | Nil => [TOpen; TClose]
  | Imm _ => [TAtom v]
  | Ptr p => match nth_error h p with Some (Vector _) => [TVec; TClose] | _ => [TAtom v] end
  end.
Fixpoint each_obj (f : alist -> val -> res (list token * alist)) (al : alist) (vs : list val) : res (list token * alist) :=
  match vs with
  | [] => Done ([], al)
  | v :: vs => '(ts, al) <- f al v; '(us, al) <- each_obj f al vs; Done (ts ++ us, al)
  end.
(** write-obj, write-interesting and write-cdr, srfi-38.ss:65-104 *)
Inductive part := Obj_part | Interesting | Cdr_part.
Fixpoint write_obj (fuel : nat) (k : part) (h : store) (al : alist) (v : val) : res (list token * alist) :=
  match fuel with
  | O => Loop
  | S fuel =>
    match k with
    | Obj_part =>
      if interesting h v then
        match assq v al with
        | None => Ub                     (* (cdr #f) *)
        | Some F => write_obj fuel Interesting h al v
        | Some (N n) => Done ([TUse n], al)
        | Some T =>
          match al with
          | (_, N m) :: _ => '(ts, al) <- write_obj fuel Interesting h ((Some v, N (S m)) :: al) v; Done (TDecl (S m) :: ts, al)
          | _ => Ub                      (* the sum of 1 and a boolean *)
          end
        end
      else Done (plain h v, al)
    | Interesting =>
      match v with
      | Ptr p =>
        match nth_error h p with
        | Some (Cons a d) =>
          '(ts, al) <- write_obj fuel Obj_part h al a;
          '(us, al) <- write_obj fuel Cdr_part h al d;
          Done (TOpen :: ts ++ us, al)
        | Some (Vector vs) => '(ts, al) <- each_obj (write_obj fuel Obj_part h) al vs; Done (TVec :: ts ++ [TClose], al)
        | Some _ => Done ([TAtom v], al)
        | None => Ub
        end
      | _ => Ub
      end
    | Cdr_part =>
      match v with
      | Nil => Done ([TClose], al)
      | Imm _ => Done (TDot :: plain h v ++ [TClose], al)
      | Ptr q =>
        match nth_error h q with
        | Some (Cons a d) =>
          match assq v al with
          | None => Ub
          | Some F =>
            '(ts, al) <- write_obj fuel Obj_part h al a;
            '(us, al) <- write_obj fuel Cdr_part h al d;
            Done (ts ++ us, al)
          | Some _ => '(ts, al) <- write_obj fuel Obj_part h al v; Done (TDot :: ts ++ [TClose], al)
          end
        | _ => '(ts, al) <- write_obj fuel Obj_part h al v; Done (TDot :: ts ++ [TClose], al)
        end
      end
    end
  end.
(** srfi-38.ss:124 *)
Definition write_shared (fuel : nat) (h : store) (v : val) : res (list token) :=
  al <- scan fuel h [] v; '(ts, _) <- write_obj fuel Obj_part h ((None, N 0) :: al) v; Done ts.

(** ** Reading *)
Fixpoint update (h : store) (p : nat) (o : node) : store :=
  match h, p with
  | [], _ => []
  | _ :: r, O => o :: r
  | x :: r, S p => x :: update r p o
  end.
(** Is this the label n of the reader? *)
Definition is_label (h : store) (n : nat) (v : val) : bool :=
  match v with Ptr p => match nth_error h p with Some (Label m) => Nat.eqb m n | _ => false end | _ => false end.
(** circulate, textual_input_port.cpp:89-105 *)
Fixpoint circulate (fuel : nat) (h : store) (xs x : val) (n : nat) : res store :=
  match fuel with
  | O => Loop
  | S fuel =>
    match xs with
    | Ptr p =>
      match nth_error h p with
      | Some (Cons a d) =>
        h <- circulate fuel h a x n;
        match nth_error h p with
        | Some (Cons a d) => if is_label h n d then Done (update h p (Cons a x)) else circulate fuel h d x n
        | _ => Ub
        end
      | _ => Done h
      end
    | _ => Done h
    end
  end.

(** What read gives: a datum, one of the two exceptions of the list reader, or a failure *)
Inductive reading := Got (v : val) | Got_close | Got_dot | Fails.
(** The labels declared on the port, textual_input_port.hpp:61 *)
Record port := Port { heap_of : store; labels : list (nat * nat) }.
Fixpoint declared (n : nat) (ls : list (nat * nat)) : option nat :=
  match ls with [] => None | (m, p) :: ls => if Nat.eqb m n then Some p else declared n ls end.
Fixpoint erase (n : nat) (ls : list (nat * nat)) : list (nat * nat) :=
  match ls with [] => [] | (m, p) :: ls => if Nat.eqb m n then erase n ls else (m, p) :: erase n ls end.
(** take_character_until a closing parenthesis, textual_input_port.cpp:567; a parenthesis inside the
    tokens skipped is taken as well *)
Fixpoint skip (ts : list token) : option (list token) :=
  match ts with [] => None | TClose :: ts => Some ts | _ :: ts => skip ts end.
(** The elements of a proper list (as_proper_list, textual_input_port.cpp:469) *)
Fixpoint items (fuel : nat) (h : store) (v : val) : res (list val) :=
  match fuel with
  | O => Loop
  | S fuel =>
    match v with
    | Nil => Done []
    | Ptr p => match nth_error h p with Some (Cons a d) => vs <- items fuel h d; Done (a :: vs) | _ => Ub end
    | Imm _ => Ub
    end
  end.
(** read, textual_input_port.cpp:309-360, 468-469 and 553-572; inside a list (inside = true) it is called
    with an opening parenthesis.  A text that ends too early fails here (see C54). *)
Fixpoint read (fuel : nat) (inside : bool) (s : port) (ts : list token) : res (reading * port * list token) :=
  match fuel with
  | O => Loop
  | S fuel =>
    if inside then
      '(r, s1, ts1) <-
        ('(x, s, ts) <- read fuel false s ts;
         match x with
         | Got x =>
           '(y, s, ts) <- read fuel true s ts;
           match y with
           | Got y => Done (Got (Ptr (length (heap_of s))), Port (heap_of s ++ [Cons x y]) (labels s), ts)
           | _ => Done (y, s, ts)
           end
         | _ => Done (x, s, ts)
         end);
      match r with
      | Got_close => Done (Got Nil, s1, ts1)
      | Got_dot =>
        '(x, s, ts) <- read fuel false s1 ts1;
        match x with
        | Got v => match skip ts with Some ts => Done (Got v, s, ts) | None => Done (Fails, s, ts) end
        | _ => Done (x, s, ts)
        end
      | _ => Done (r, s1, ts1)
      end
    else
      match ts with
      | [] => Done (Fails, s, ts)
      | TAtom v :: ts => Done (Got v, s, ts)
      | TOpen :: ts => read fuel true s ts
      | TVec :: ts =>
        '(x, s, ts) <- read fuel true s ts;
        match x with
        | Got v => vs <- items (S (length (heap_of s))) (heap_of s) v;
                   Done (Got (Ptr (length (heap_of s))), Port (heap_of s ++ [Vector vs]) (labels s), ts)
        | _ => Done (x, s, ts)
        end
      | TClose :: ts => Done (Got_close, s, ts)
      | TDot :: ts => Done (Got_dot, s, ts)
      | TUse n :: ts => match declared n (labels s) with
                        | Some p => Done (Got (Ptr p), s, ts)
                        | None => Done (Fails, s, ts)
                        end
      | TDecl n :: ts =>
        match declared n (labels s) with
        | Some _ => Done (Fails, s, ts)
        | None =>
          let p := length (heap_of s) in
          '(x, s, ts) <- read fuel false (Port (heap_of s ++ [Label n]) ((n, p) :: labels s)) ts;
          match x with
          | Got xs =>
            if veq xs (Ptr p) then Done (Got Nil, s, ts)
            else h <- circulate fuel (heap_of s) xs xs n; Done (Got xs, Port h (erase n (labels s)), ts)
          | _ => Done (x, s, ts)
          end
        end
      end
  end.
Definition read_datum (fuel : nat) (s : port) (ts : list token) := read fuel false s ts.
