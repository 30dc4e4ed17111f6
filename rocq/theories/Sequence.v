(** Model of the string, vector and homogeneous vector procedures registered in
    src/kernel/boot.cpp (lines 348-421), of homogeneous_vector.hpp and of the
    procedures of library/r7rs.ss built directly on them.

    A string is the list of its code points, a vector the list of its elements, a
    homogeneous vector the list of its values.  Allocation is not modelled except
    in the copying procedures, where source and destination may be the same object:
    those work on a store of numbered sequences.  A list given to or returned by a
    procedure is its element sequence.  Indexing a std::vector or std::valarray out
    of range with [] or an iterator is undefined behaviour ([Crash]). *)
From Coq Require Import ZArith QArith List Bool Lia.
From Verif Require Import Number TextPort.
Import ListNotations.
Open Scope Z_scope.

(** ** Index conversion *)
(** exact_integer_cast<std::size_t>, number.hpp:339-358: an int is converted modulo
    2^64; mpz_get_ui (large_integer.hpp:69-84) takes the low bits of the absolute
    value; a ratio goes through double. *)
Definition cast_size (x : num) : outcome Z :=
  match x with
  | Small z => Ok (z mod 2^64)
  | Large z => Ok (Z.abs z mod 2^64)
  | Ratio q => match get_d q with
               | Some d => if (0 <=? d_trunc d) && (d_trunc d <? 2^64) then Ok (d_trunc d) else Crash
               | None => Crash
               end
  end.

Section Sequences.
Context {A : Type}.

Definition len (xs : list A) : Z := Z.of_nat (length xs).
(** static_cast<small_integer>(size()): string-length boot.cpp:351, vector-length
    boot.cpp:391, homogeneous boot.cpp:406 *)
Definition seq_length (xs : list A) : num := Small ((len xs + 2^31) mod 2^32 - 2^31).

(** std::vector::at: string-ref, string-set! (boot.cpp:352-353) *)
Definition seq_at (xs : list A) (k : num) : outcome A :=
  let! i := cast_size k in
  if i <? len xs then match nth_error xs (Z.to_nat i) with Some x => Ok x | None => Crash end
  else Raise.
Fixpoint set_nth (n : nat) (x : A) (xs : list A) : list A :=
  match xs, n with
  | [], _ => []
  | _ :: r, O => x :: r
  | y :: r, S n => y :: set_nth n x r
  end.
Definition seq_set_at (xs : list A) (k : num) (x : A) : outcome (list A) :=
  let! i := cast_size k in
  if i <? len xs then Ok (set_nth (Z.to_nat i) x xs) else Raise.
(** operator []: vector-ref, vector-set! (boot.cpp:392-393), homogeneous -ref and
    -set! (boot.cpp:407-408) *)
Definition seq_ref (xs : list A) (k : num) : outcome A :=
  let! i := cast_size k in
  if i <? len xs then match nth_error xs (Z.to_nat i) with Some x => Ok x | None => Crash end
  else Crash.
Definition seq_set (xs : list A) (k : num) (x : A) : outcome (list A) :=
  let! i := cast_size k in
  if i <? len xs then Ok (set_nth (Z.to_nat i) x xs) else Crash.

(** The pair of iterators std::next(begin, start), std::next(begin, end) with the
    optional arguments; a range that is not inside the sequence is undefined *)
Definition span (xs : list A) (start stop : option num) : outcome (nat * nat) :=
  let! s := match start with Some k => cast_size k | None => Ok 0 end in
  let! e := match stop with Some k => cast_size k | None => Ok (len xs) end in
  if (s <=? e) && (e <=? len xs) then Ok (Z.to_nat s, Z.to_nat e) else Crash.
Definition slice (xs : list A) (s e : nat) : list A := firstn (e - s) (skipn s xs).

(** string-copy (and substring, r4rs.ss:80) boot.cpp:367, vector-copy boot.cpp:398,
    homogeneous -copy boot.cpp:409; string->list boot.cpp:365 and vector->list
    boot.cpp:394 traverse the same range backwards while consing; homogeneous
    ->list boot.cpp:412 conses forwards and reverses; vector->string boot.cpp:396 *)
Definition seq_copy (xs : list A) (start stop : option num) : outcome (list A) :=
  let! r := span xs start stop in Ok (slice xs (fst r) (snd r)).
Definition seq_to_list (xs : list A) (start stop : option num) : outcome (list A) :=
  let! r := span xs start stop in
  Ok (fold_left (fun acc x => x :: acc) (rev (slice xs (fst r) (snd r))) []).
Definition hseq_to_list (xs : list A) (start stop : option num) : outcome (list A) :=
  let! r := span xs start stop in
  Ok (rev (fold_left (fun acc x => x :: acc) (slice xs (fst r) (snd r)) [])).

(** string-append boot.cpp:364, vector-append boot.cpp:400 *)
Definition seq_append (xss : list (list A)) : list A := fold_left (fun s x => s ++ x) xss [].
(** homogeneous -append boot.cpp:411: only the first two arguments are looked at *)
Definition hseq_append (xss : list (list A)) : outcome (list A) :=
  match xss with a :: b :: _ => Ok (a ++ b) | _ => Raise end.

(** make-string boot.cpp:349, make-vector boot.cpp:390 *)
Definition seq_make (k : num) (x : A) : outcome (list A) :=
  let! n := cast_size k in Ok (repeat x (Z.to_nat n)).

(** string-fill! boot.cpp:369, vector-fill! boot.cpp:401 *)
Definition seq_fill (xs : list A) (x : A) (start stop : option num) : outcome (list A) :=
  let! r := span xs start stop in
  Ok (firstn (fst r) xs ++ repeat x (snd r - fst r) ++ skipn (snd r) xs).

(** ** Copying into an existing object *)
Definition store := nat -> list A.
Definition update (h : store) (o : nat) (xs : list A) : store :=
  fun p => if Nat.eqb p o then xs else h p.

(** std::copy over elements with a non-trivial assignment (object), and valarray
    slice assignment: one element after the other, from the front *)
Fixpoint copy_forward (n : nat) (h : store) (from i to j : nat) : outcome store :=
  match n with
  | O => Ok h
  | S n => match nth_error (h from) i with
           | None => Crash
           | Some x => if (Z.of_nat j <? len (h to))
                       then copy_forward n (update h to (set_nth j x (h to))) from (S i) to (S j)
                       else Crash
           end
  end.
(** std::copy over a trivially copyable type (character) is memmove in libstdc++:
    the source is read before anything is written *)
Fixpoint write_all (xs : list A) (j : nat) (ys : list A) : outcome (list A) :=
  match ys with
  | [] => Ok xs
  | y :: ys => if Z.of_nat j <? len xs then write_all (set_nth j y xs) (S j) ys else Crash
  end.
Definition copy_memmove (n : nat) (h : store) (from i to j : nat) : outcome store :=
  let! xs := write_all (h to) j (firstn n (skipn i (h from))) in Ok (update h to xs).

(** vector-copy! boot.cpp:399, homogeneous -copy! boot.cpp:410 *)
Definition vector_copy_into (h : store) (to : nat) (at_ : num) (from : nat) (start stop : option num)
  : outcome store :=
  let! r := span (h from) start stop in
  let! j := cast_size at_ in
  copy_forward (snd r - fst r) h from (fst r) to (Z.to_nat j).
(** string-copy! boot.cpp:368 *)
Definition string_copy_into (h : store) (to : nat) (at_ : num) (from : nat) (start stop : option num)
  : outcome store :=
  let! r := span (h from) start stop in
  let! j := cast_size at_ in
  copy_memmove (snd r - fst r) h from (fst r) to (Z.to_nat j).
End Sequences.

(** ** Comparison *)
(** std::lexicographical_compare with a comparator *)
Fixpoint lex (comp : Z -> Z -> bool) (a b : list Z) : bool :=
  match a, b with
  | [], [] => false
  | [], _ :: _ => true
  | _ :: _, [] => false
  | x :: a, y :: b => if comp x y then true else if comp y x then false else lex comp a b
  end.
(** operator == and < on std::vector<character>, string.cpp:49-54 *)
Fixpoint chars_eq (a b : list Z) : bool :=
  match a, b with
  | [], [] => true
  | x :: a, y :: b => (x =? y) && chars_eq a b
  | _, _ => false
  end.
Definition chars_lt := lex Z.ltb.
Definition chars_gt (a b : list Z) := chars_lt b a.
Definition chars_le (a b : list Z) := negb (chars_lt b a).
Definition chars_ge (a b : list Z) := negb (chars_lt a b).

(** not adjacent_find(not compare): boot.cpp:354-363 *)
Fixpoint adjacent {A} (compare : A -> A -> bool) (xs : list A) : bool :=
  match xs with
  | x :: (y :: _) as r => compare x y && adjacent compare r
  | _ => true
  end.
(** string=? string<? string>? string<=? string>=?, boot.cpp:354-358 *)
Definition string_eq := adjacent chars_eq.
Definition string_lt := adjacent chars_lt.
Definition string_gt := adjacent chars_gt.
Definition string_le := adjacent chars_le.
Definition string_ge := adjacent chars_ge.
(** string-ci..., boot.cpp:359-363.  [down] stands for character::downcase, whose
    table (unicode/downcase.hpp) is not modelled: theorems hold for any table. *)
Definition string_ci (op : Z -> Z -> bool) (down : Z -> Z) :=
  adjacent (lex (fun x y => op (down x) (down y))).
Definition string_ci_eq := string_ci Z.eqb.
Definition string_ci_lt := string_ci Z.ltb.
Definition string_ci_gt := string_ci Z.gtb.
Definition string_ci_le := string_ci Z.leb.
Definition string_ci_ge := string_ci Z.geb.
(** char=? ... char-ci>=?, boot.cpp:91-100 *)
Definition char_cmp (op : Z -> Z -> bool) := adjacent op.
Definition char_ci_cmp (op : Z -> Z -> bool) (down : Z -> Z) := adjacent (fun x y => op (down x) (down y)).

(** ** Homogeneous vectors of exact integers *)
(** The element types s8 ... u64 *)
Record elem_type := Elem { bits : Z; signed_type : bool }.
Definition elem_types : list elem_type :=
  [Elem 8 true; Elem 16 true; Elem 32 true; Elem 64 true;
   Elem 8 false; Elem 16 false; Elem 32 false; Elem 64 false].
(** static_cast to the element type from an integer: modulo 2^bits *)
Definition wrap (t : elem_type) (z : Z) : Z :=
  if signed_type t then (z + 2^(bits t - 1)) mod 2^(bits t) - 2^(bits t - 1) else z mod 2^(bits t).
(** mpz_get_si and mpz_get_ui *)
Definition get_si (z : Z) : Z :=
  if z <? 0 then -1 - ((Z.abs z mod 2^64 - 1) mod 2^63) else z mod 2^63.
Definition get_ui (z : Z) : Z := Z.abs z mod 2^64.
(** homogeneous_vector::input_cast, homogeneous_vector.hpp:57-71; float and double
    arguments are not modelled *)
Definition input_cast (t : elem_type) (x : num) : outcome Z :=
  match x with
  | Small z => Ok (wrap t z)
  | Large z => Ok (wrap t (if signed_type t then get_si z else get_ui z))
  | Ratio _ => Raise
  end.
(** homogeneous_vector::output_cast, homogeneous_vector.hpp:73-76 *)
Definition output_cast (v : Z) : num := Large v.

(** #TAG vector-ref and -set!, boot.cpp:407-408 *)
Definition h_ref (xs : list Z) (k : num) : outcome num := let! v := seq_ref xs k in Ok (output_cast v).
Definition h_set (t : elem_type) (xs : list Z) (k x : num) : outcome (list Z) :=
  let! v := input_cast t x in seq_set xs k v.
(** #TAG vector, list->#TAG vector: homogeneous_vector.hpp:36-47 *)
Fixpoint h_of_list (t : elem_type) (xs : list num) : outcome (list Z) :=
  match xs with
  | [] => Ok []
  | x :: r => let! v := input_cast t x in let! vs := h_of_list t r in Ok (v :: vs)
  end.

(** ** Conversions between strings, vectors and bytes *)
(** string->vector, boot.cpp:397: the optional arguments are ignored *)
Definition string_to_vector (cs : list Z) (start stop : option num) : list Z := cs.
(** string->u8vector (string->utf8, r7rs.ss:200), boot.cpp:420: likewise *)
Definition string_to_bytes (cs : list Z) (start stop : option num) : list Z := string_utf8 cs.
(** u8vector->string (utf8->string, r7rs.ss:198), boot.cpp:419 *)
Definition bytes_to_string (bs : list Z) (start stop : option num) : outcome result :=
  let! r := span bs start stop in
  Ok (fst (p_get_string (Z.to_nat (2^64 - 1)) (stream_of (slice bs (fst r) (snd r))))).

(** string-map and vector-map with one argument, r7rs.ss:202-210: map calls the
    procedure in some order; only procedures without effects are considered *)
Definition seq_map {A B} (f : A -> B) (xs : list A) : outcome (list B) :=
  let! l := seq_to_list xs None None in Ok (map f l).
