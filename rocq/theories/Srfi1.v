(** Model of library/srfi-1.ss, on the heap of Lists.v.

    A procedure is a function of the heap and of a world [W] that stands for everything else its
    procedure arguments may read or write.  [Stop] is that it does not return: an error is signalled, or
    a procedure argument does not return.  [More] is that the fuel of a recursion is used up.
    Simplifications: the lists of a procedure of several lists come as a list of Gallina, as do the
    arguments of a procedure argument, so that the list of the remaining arguments itself is not in the heap;
    multiple values are pairs of Gallina; exact integers are [nat]; the codes of #f and #t are arbitrary
    immediates; optional arguments are given; unzip3 to unzip5, append-map! and the procedures lset-...! are not
    modelled. Operands are evaluated from the last to the first
    (generator.cpp:262-271). *)
From Coq Require Import ZArith List Bool.
From Verif Require Import Lists.
Import ListNotations.

Definition v_false : val := Imm 0.
Definition v_true : val := Imm 1.
Definition bool_val (b : bool) : val := if b then v_true else v_false.
(** if: everything but #f is true *)
Definition truth (v : val) : bool := negb (veq v v_false).

Section Srfi1.
Context {W : Type}.

Inductive out (A : Type) := Ret (a : A) (h : heap) (w : W) | Stop | More.
Arguments Ret {A} a h w. Arguments Stop {A}. Arguments More {A}.
Definition M (A : Type) : Type := heap -> W -> out A.
Definition ret {A} (a : A) : M A := fun h w => Ret a h w.
Definition stop {A} : M A := fun _ _ => Stop.
Definition more {A} : M A := fun _ _ => More.
Definition mbind {A B} (m : M A) (k : A -> M B) : M B :=
  fun h w => match m h w with Ret a h' w' => k a h' w' | Stop => Stop | More => More end.
Local Notation "x <~ m ; k" := (mbind m (fun x => k)) (at level 61, m at next level, right associativity).
Local Notation "' p <~ m ; k" := (mbind m (fun p => k)) (at level 61, p pattern, m at next level, right associativity).
(** a procedure argument *)
Definition proc : Type := list val -> M val.

Definition look (m : heap -> res val) : M val := fun h w => match m h with Done v => Ret v h w | Ub => Stop | Loop => More end.
Definition head (x : val) : M val := look (fun h => car h x).
Definition tail (x : val) : M val := look (fun h => cdr h x).
Definition pair (a d : val) : M val := fun h w => let '(p, h') := cons_ h a d in Ret p h' w.
Definition write_cdr (x v : val) : M unit := fun h w => match set_cdr h x v with Done h' => Ret tt h' w | Ub => Stop | Loop => More end.
(** set-car!, boot.cpp:305 *)
Definition set_car (h : heap) (x v : val) : res heap :=
  match x with Ptr p => match nth_error h p with Some o => Done (put h p (Obj (pairp o) v (second o))) | None => Ub end | _ => Ub end.
Definition write_car (x v : val) : M unit := fun h w => match set_car h x v with Done h' => Ret tt h' w | Ub => Stop | Loop => More end.
Definition pairq (x : val) : M bool := fun h w => Ret (is_pair h x) h w.
(** null-list?, boot.cpp:146; the fuel is enough by C22 *)
Definition null_listq (x : val) : M bool := fun h w =>
  match proper_p (S (length h)) h x, circular_p (S (length h)) h x with
  | Done false, Done false => Stop
  | Done _, Done _ => Ret (is_null x) h w
  | _, _ => More
  end.
Definition test (f : proc) (args : list val) : M bool := r <~ f args; ret (truth r).

(** ** Several lists *)
(** %cdrs, srfi-1.ss:837-847; the continuation is called with (); the cdr is taken after the recursion *)
Fixpoint cdrs_loop (xss : list val) : M (option (list val)) :=
  match xss with
  | [] => ret (Some [])
  | xs :: xss =>
    e <~ null_listq xs;
    if e then ret None
    else r <~ cdrs_loop xss;
         match r with None => ret None | Some ds => d <~ tail xs; ret (Some (d :: ds)) end
  end.
Definition cdrs (xss : list val) : M (list val) := r <~ cdrs_loop xss; ret (match r with Some ds => ds | None => [] end).
(** %cars+, srfi-1.ss:849-854 *)
Fixpoint cars_plus (xss : list val) (z : val) : M (list val) :=
  match xss with
  | [] => ret [z]
  | xs :: xss => r <~ cars_plus xss z; a <~ head xs; ret (a :: r)
  end.
(** %cars+cdrs, srfi-1.ss:856-870, and %cars+cdrs+, 872-886, which differ in the last list of cars *)
Fixpoint cars_cdrs_loop (xss : list val) (last : list val) : M (option (list val * list val)) :=
  match xss with
  | [] => ret (Some (last, []))
  | xs :: xss =>
    e <~ null_listq xs;
    if e then ret None
    else d <~ tail xs; a <~ head xs;
         r <~ cars_cdrs_loop xss last;
         match r with None => ret None | Some (cs, ds) => ret (Some (a :: cs, d :: ds)) end
  end.
Definition cars_cdrs_plus (xss : list val) (last : list val) : M (list val * list val) :=
  r <~ cars_cdrs_loop xss last; ret (match r with Some p => p | None => ([], []) end).
Definition cars_cdrs (xss : list val) : M (list val * list val) := cars_cdrs_plus xss [].
(** %cars+cdrs/no-test, srfi-1.ss:888-897 *)
Fixpoint cars_cdrs_no_test (xss : list val) : M (list val * list val) :=
  match xss with
  | [] => ret ([], [])
  | xs :: xss => d <~ tail xs; a <~ head xs; '(cs, ds) <~ cars_cdrs_no_test xss; ret (a :: cs, d :: ds)
  end.
Definition nullp {A} (l : list A) : bool := match l with [] => true | _ => false end.

(** ** Constructors, predicates and selectors *)
(** list-tabulate, srfi-1.ss:101-106 *)
Fixpoint list_tabulate_loop (num : nat -> val) (n i : nat) (f : proc) : M val :=
  match n with
  | O => ret Nil
  | S n => r <~ list_tabulate_loop num n (S i) f; a <~ f [num i]; pair a r
  end.
Definition list_tabulate (num : nat -> val) (k : nat) (f : proc) : M val := list_tabulate_loop num k 0 f.
(** list=, srfi-1.ss:110-128 *)
Fixpoint list_eq_inner (fuel : nat) (eq : proc) (a b : val) : M bool :=
  match fuel with
  | O => more
  | S fuel =>
    ea <~ null_listq a;
    if ea then null_listq b
    else eb <~ null_listq b;
         if eb then ret false
         else y <~ head b; x <~ head a; t <~ test eq [x; y];
              if t then db <~ tail b; da <~ tail a; list_eq_inner fuel eq da db else ret false
  end.
Fixpoint list_eq_outer (fuel : nat) (eq : proc) (xs : val) (xss : list val) : M bool :=
  match xss with
  | [] => ret true
  | ys :: xss =>
    if veq xs ys then list_eq_outer fuel eq ys xss
    else t <~ list_eq_inner fuel eq xs ys;
         if t then list_eq_outer fuel eq ys xss else ret false
  end.
Definition list_eq (fuel : nat) (eq : proc) (xss : list val) : M bool :=
  match xss with [] => ret true | xs :: xss => list_eq_outer fuel eq xs xss end.
(** split-at, srfi-1.ss:134-141 *)
Fixpoint split_at (xs : val) (k : nat) : M (val * val) :=
  match k with
  | O => ret (Nil, xs)
  | S k => d <~ tail xs; '(a, b) <~ split_at d k; x <~ head xs; c <~ pair x a; ret (c, b)
  end.
(** split-at!, srfi-1.ss:143-149; drop of list.cpp *)
Definition split_at_x (x : val) (k : nat) : M (val * val) :=
  match k with
  | O => ret (Nil, x)
  | S k => p <~ look (fun h => drop h x k); s <~ tail p; _ <~ write_cdr p Nil; ret (x, s)
  end.
(** unzip2, srfi-1.ss:157-164; unzip3, unzip4 and unzip5 are not modelled *)
Fixpoint unzip2 (fuel : nat) (xs : val) : M (val * val) :=
  match fuel with
  | O => more
  | S fuel =>
    e <~ null_listq xs;
    if e then ret (xs, xs)
    else x <~ head xs; d <~ tail xs; '(a, b) <~ unzip2 fuel d;
         t <~ tail x; x1 <~ head t; b' <~ pair x1 b; x0 <~ head x; a' <~ pair x0 a; ret (a', b')
  end.

(** ** count, fold, unfold, map *)
(** count, srfi-1.ss:199-220 *)
Fixpoint count1 (fuel : nat) (p : proc) (x : val) (i : nat) : M nat :=
  match fuel with
  | O => more
  | S fuel =>
    e <~ null_listq x;
    if e then ret i
    else a <~ head x; t <~ test p [a]; d <~ tail x; count1 fuel p d (if t then S i else i)
  end.
Fixpoint countn (fuel : nat) (p : proc) (x : val) (xs : list val) (i : nat) : M nat :=
  match fuel with
  | O => more
  | S fuel =>
    e <~ null_listq x;
    if e then ret i
    else '(as_, ds) <~ cars_cdrs xs;
         if nullp as_ then ret i
         else a <~ head x; t <~ test p (a :: as_); d <~ tail x; countn fuel p d ds (if t then S i else i)
  end.
Definition count (fuel : nat) (p : proc) (x : val) (xs : list val) : M nat :=
  if nullp xs then count1 fuel p x 0 else countn fuel p x xs 0.
(** fold, srfi-1.ss:222-235 *)
Fixpoint fold1 (fuel : nat) (f : proc) (x ans : val) : M val :=
  match fuel with
  | O => more
  | S fuel =>
    e <~ null_listq x;
    if e then ret ans else a <~ head x; r <~ f [a; ans]; d <~ tail x; fold1 fuel f d r
  end.
Fixpoint foldn (fuel : nat) (f : proc) (xs : list val) (ans : val) : M val :=
  match fuel with
  | O => more
  | S fuel =>
    '(cs, ds) <~ cars_cdrs_plus xs [ans];
    if nullp cs then ret ans else r <~ f cs; foldn fuel f ds r
  end.
Definition fold (fuel : nat) (f : proc) (z x : val) (xs : list val) : M val :=
  if nullp xs then fold1 fuel f x z else foldn fuel f (x :: xs) z.
(** unfold, srfi-1.ss:237-249; [generate] is the optional argument, '() without it *)
Fixpoint unfold (fuel : nat) (p f g : proc) (generate : proc) (seed : val) : M val :=
  match fuel with
  | O => more
  | S fuel =>
    t <~ test p [seed];
    if t then generate [seed]
    else s <~ g [seed]; r <~ unfold fuel p f g generate s; a <~ f [seed]; pair a r
  end.
(** pair-fold, srfi-1.ss:251-264; of one list *)
Fixpoint pair_fold (fuel : nat) (f : proc) (x ans : val) : M val :=
  match fuel with
  | O => more
  | S fuel =>
    e <~ null_listq x;
    if e then ret ans else d <~ tail x; r <~ f [x; ans]; pair_fold fuel f d r
  end.
(** reduce, srfi-1.ss:266-269 *)
Definition reduce (fuel : nat) (f : proc) (ridentity x : val) : M val :=
  e <~ null_listq x;
  if e then ret ridentity else d <~ tail x; a <~ head x; fold1 fuel f d a.
(** fold-right, srfi-1.ss:271-282 *)
Fixpoint fold_right1 (fuel : nat) (f : proc) (z xs : val) : M val :=
  match fuel with
  | O => more
  | S fuel =>
    e <~ null_listq xs;
    if e then ret z else a <~ head xs; d <~ tail xs; r <~ fold_right1 fuel f z d; f [a; r]
  end.
Fixpoint fold_rightn (fuel : nat) (f : proc) (z : val) (xs : list val) : M val :=
  match fuel with
  | O => more
  | S fuel =>
    ds <~ cdrs xs;
    if nullp ds then ret z else r <~ fold_rightn fuel f z ds; cs <~ cars_plus xs r; f cs
  end.
Definition fold_right (fuel : nat) (f : proc) (z x : val) (xs : list val) : M val :=
  if nullp xs then fold_right1 fuel f z x else fold_rightn fuel f z (x :: xs).
(** unfold-right, srfi-1.ss:284-292 *)
Fixpoint unfold_right (fuel : nat) (p f g : proc) (seed ans : val) : M val :=
  match fuel with
  | O => more
  | S fuel =>
    t <~ test p [seed];
    if t then ret ans else a <~ f [seed]; c <~ pair a ans; s <~ g [seed]; unfold_right fuel p f g s c
  end.
(** pair-fold-right, srfi-1.ss:294-304; of one list *)
Fixpoint pair_fold_right (fuel : nat) (f : proc) (z x : val) : M val :=
  match fuel with
  | O => more
  | S fuel =>
    e <~ null_listq x;
    if e then ret z else d <~ tail x; r <~ pair_fold_right fuel f z d; f [x; r]
  end.
(** pair-fold and pair-fold-right of several lists, srfi-1.ss:251-258 and 294-300: the list of the remaining arguments is
    in the heap, as append! alters it; the first list is put in front of it. [spread] is the argument list of a call
    by apply; [list_of] the list %cdrs conses *)
Fixpoint spread (fuel : nat) (xs : val) : M (list val) :=
  match fuel with
  | O => more
  | S fuel => if is_null xs then ret [] else d <~ tail xs; a <~ head xs; r <~ spread fuel d; ret (a :: r)
  end.
Fixpoint list_of (vs : list val) : M val := match vs with [] => ret Nil | v :: vs => r <~ list_of vs; pair v r end.
Definition append_bang (xs ys : val) : M val := fun h w => match append_x2 (S (length h)) h xs ys with Done (r, h') => Ret r h' w | Ub => Stop | Loop => More end.
Definition spread_all (xs : val) : M (list val) := fun h w => spread (S (length h)) xs h w.
Fixpoint pair_foldn_loop (fuel : nat) (f : proc) (xs ans : val) : M val :=
  match fuel with
  | O => more
  | S fuel =>
    es <~ spread_all xs; ds <~ cdrs es;
    if nullp ds then ret ans
    else tails <~ list_of ds; l <~ pair ans Nil; args <~ append_bang xs l; es <~ spread_all args; r <~ f es; pair_foldn_loop fuel f tails r
  end.
Definition pair_foldn (fuel : nat) (f : proc) (z x rest : val) : M val := xs <~ pair x rest; pair_foldn_loop fuel f xs z.
Fixpoint pair_fold_rightn_loop (fuel : nat) (f : proc) (z xs : val) : M val :=
  match fuel with
  | O => more
  | S fuel =>
    es <~ spread_all xs; ds <~ cdrs es;
    if nullp ds then ret z
    else tails <~ list_of ds; r <~ pair_fold_rightn_loop fuel f z tails; l <~ pair r Nil; args <~ append_bang xs l; es <~ spread_all args; f es
  end.
Definition pair_fold_rightn (fuel : nat) (f : proc) (z x rest : val) : M val := xs <~ pair x rest; pair_fold_rightn_loop fuel f z xs.
(** reduce-right, srfi-1.ss:306-314 *)
Fixpoint reduce_right_loop (fuel : nat) (f : proc) (x xs : val) : M val :=
  match fuel with
  | O => more
  | S fuel =>
    p <~ pairq xs;
    if p then d <~ tail xs; a <~ head xs; r <~ reduce_right_loop fuel f a d; f [x; r] else ret x
  end.
Definition reduce_right (fuel : nat) (f : proc) (ridentity xs : val) : M val :=
  e <~ null_listq xs;
  if e then ret ridentity else d <~ tail xs; a <~ head xs; reduce_right_loop fuel f a d.
(** append-map and %append-map with append, srfi-1.ss:316-317 and 322-343; append of list.cpp, whose fuel is enough for any proper list *)
Definition append2 (x y : val) : M val :=
  fun h w => match append (S (length h)) h x y with Done (r, h') => Ret r h' w | Ub => Stop | Loop => More end.
Fixpoint append_map1_loop (fuel : nat) (f : proc) (x xs : val) : M val :=
  match fuel with
  | O => more
  | S fuel =>
    vs <~ f [x];
    e <~ null_listq xs;
    if e then ret vs
    else d <~ tail xs; a <~ head xs; r <~ append_map1_loop fuel f a d; append2 vs r
  end.
Fixpoint append_mapn_loop (fuel : nat) (f : proc) (cs ds : list val) : M val :=
  match fuel with
  | O => more
  | S fuel =>
    vs <~ f cs;
    '(cs2, ds2) <~ cars_cdrs ds;
    if nullp cs2 then ret vs else r <~ append_mapn_loop fuel f cs2 ds2; append2 vs r
  end.
Definition append_map (fuel : nat) (f : proc) (x : val) (xs : list val) : M val :=
  if nullp xs
  then e <~ null_listq x; if e then ret Nil else d <~ tail x; a <~ head x; append_map1_loop fuel f a d
  else '(cs, ds) <~ cars_cdrs (x :: xs); if nullp cs then ret Nil else append_mapn_loop fuel f cs ds.
(** pair-for-each, srfi-1.ss:359-370 *)
Fixpoint pair_for_each1 (fuel : nat) (f : proc) (x : val) : M unit :=
  match fuel with
  | O => more
  | S fuel =>
    e <~ null_listq x;
    if e then ret tt else d <~ tail x; _ <~ f [x]; pair_for_each1 fuel f d
  end.
Fixpoint pair_for_eachn (fuel : nat) (f : proc) (xs : list val) : M unit :=
  match fuel with
  | O => more
  | S fuel =>
    ds <~ cdrs xs;
    if nullp ds then ret tt else _ <~ f xs; pair_for_eachn fuel f ds
  end.
(** map!, srfi-1.ss:345-357 *)
Fixpoint map_xn (fuel : nat) (f : proc) (x : val) (xs : list val) : M unit :=
  match fuel with
  | O => more
  | S fuel =>
    e <~ null_listq x;
    if e then ret tt
    else '(hs, ts) <~ cars_cdrs_no_test xs;
         a <~ head x; r <~ f (a :: hs); _ <~ write_car x r; d <~ tail x; map_xn fuel f d ts
  end.
Definition map_x (fuel : nat) (f : proc) (x : val) (xs : list val) : M val :=
  if nullp xs
  then _ <~ pair_for_each1 fuel (fun args => match args with [p] => a <~ head p; r <~ f [a]; _ <~ write_car p r; ret Nil | _ => stop end) x; ret x
  else _ <~ map_xn fuel f x xs; ret x.
(** filter-map, srfi-1.ss:372-384 *)
Fixpoint filter_map1 (fuel : nat) (f : proc) (x : val) : M val :=
  match fuel with
  | O => more
  | S fuel =>
    e <~ null_listq x;
    if e then ret x
    else d <~ tail x; t <~ filter_map1 fuel f d; a <~ head x; r <~ f [a]; if truth r then pair r t else ret t
  end.
Fixpoint filter_mapn (fuel : nat) (f : proc) (xs : list val) : M val :=
  match fuel with
  | O => more
  | S fuel =>
    '(cs, ds) <~ cars_cdrs xs;
    if nullp cs then ret Nil
    else r <~ f cs; if truth r then t <~ filter_mapn fuel f ds; pair r t else filter_mapn fuel f ds
  end.
Definition filter_map (fuel : nat) (f : proc) (x : val) (xs : list val) : M val :=
  if nullp xs then filter_map1 fuel f x else filter_mapn fuel f (x :: xs).
(** map-in-order, srfi-1.ss:386-398 *)
Fixpoint map_in_order1 (fuel : nat) (f : proc) (x : val) : M val :=
  match fuel with
  | O => more
  | S fuel =>
    e <~ null_listq x;
    if e then ret x
    else a <~ head x; r <~ f [a]; d <~ tail x; t <~ map_in_order1 fuel f d; pair r t
  end.
Fixpoint map_in_ordern (fuel : nat) (f : proc) (xs : list val) : M val :=
  match fuel with
  | O => more
  | S fuel =>
    '(cs, ds) <~ cars_cdrs xs;
    if nullp cs then ret Nil else r <~ f cs; t <~ map_in_ordern fuel f ds; pair r t
  end.
Definition map_in_order (fuel : nat) (f : proc) (x : val) (xs : list val) : M val :=
  if nullp xs then map_in_order1 fuel f x else map_in_ordern fuel f (x :: xs).

(** ** Filtering and partitioning *)
(** filter, srfi-1.ss:400-411 *)
Fixpoint filter (fuel : nat) (p : proc) (x : val) : M val :=
  match fuel with
  | O => more
  | S fuel =>
    e <~ null_listq x;
    if e then ret x
    else d <~ tail x; a <~ head x;
         t <~ test p [a];
         if t then r <~ filter fuel p d; if veq d r then ret x else pair a r
         else filter fuel p d
  end.
(** filter!, srfi-1.ss:413-420 *)
Fixpoint filter_x (fuel : nat) (p : proc) (xs : val) : M val :=
  match fuel with
  | O => more
  | S fuel =>
    q <~ pairq xs;
    if q then
      a <~ head xs; t <~ test p [a];
      if t then d <~ tail xs; r <~ filter_x fuel p d; _ <~ write_cdr xs r; ret xs
      else d <~ tail xs; filter_x fuel p d
    else ret xs
  end.
(** partition, srfi-1.ss:422-436 *)
Fixpoint partition (fuel : nat) (p : proc) (xs : val) : M (val * val) :=
  match fuel with
  | O => more
  | S fuel =>
    e <~ null_listq xs;
    if e then ret (xs, xs)
    else x <~ head xs; d <~ tail xs;
         '(a, b) <~ partition fuel p d;
         t <~ test p [x];
         if t then q <~ pairq b; c <~ (if q then pair x a else ret xs); ret (c, b)
         else q <~ pairq a; c <~ (if q then pair x b else ret xs); ret (a, c)
  end.
(** partition!, srfi-1.ss:438-475: scan-in is [scan true], scan-out is [scan false] *)
Fixpoint scan (fuel : nat) (p : proc) (inside : bool) (in_prev out_prev xs : val) : M unit :=
  match fuel with
  | O => more
  | S fuel =>
    q <~ pairq xs;
    if q then
      a <~ head xs; t <~ test p [a];
      if inside then
        if t then d <~ tail xs; scan fuel p true xs out_prev d
        else _ <~ write_cdr out_prev xs; d <~ tail xs; scan fuel p false in_prev xs d
      else
        if t then _ <~ write_cdr in_prev xs; d <~ tail xs; scan fuel p true xs out_prev d
        else d <~ tail xs; scan fuel p false in_prev xs d
    else write_cdr (if inside then out_prev else in_prev) xs
  end.
(** the loops at srfi-1.ss:459-475: the first elements satisfy, or not *)
Fixpoint lead (fuel : nat) (p : proc) (inside : bool) (xs prev l : val) : M (val * val) :=
  match fuel with
  | O => more
  | S fuel =>
    q <~ pairq l;
    if q then
      a <~ head l; t <~ test p [a];
      if Bool.eqb t inside then d <~ tail l; lead fuel p inside xs l d
      else d <~ tail l;
           if inside then _ <~ scan fuel p false prev l d; ret (xs, l)
           else _ <~ scan fuel p true l prev d; ret (l, xs)
    else ret (if inside then (xs, l) else (l, xs))
  end.
Definition partition_x (fuel : nat) (p : proc) (xs : val) : M (val * val) :=
  e <~ null_listq xs;
  if e then ret (xs, xs)
  else a <~ head xs; t <~ test p [a]; d <~ tail xs; lead fuel p t xs xs d.
(** (lambda (x) (not (satisfy? x))), srfi-1.ss:477-485, 611-619 *)
Definition complement (p : proc) : proc := fun args => t <~ test p args; ret (bool_val (negb t)).
Definition remove (fuel : nat) (p : proc) (xs : val) : M val := filter fuel (complement p) xs.
Definition remove_x (fuel : nat) (p : proc) (xs : val) : M val := filter_x fuel (complement p) xs.

(** ** Searching *)
(** find-tail, srfi-1.ss:491-496 *)
Fixpoint find_tail (fuel : nat) (p : proc) (xs : val) : M val :=
  match fuel with
  | O => more
  | S fuel =>
    e <~ null_listq xs;
    if e then ret v_false
    else a <~ head xs; t <~ test p [a]; if t then ret xs else d <~ tail xs; find_tail fuel p d
  end.
(** find, srfi-1.ss:487-489 *)
Definition find (fuel : nat) (p : proc) (xs : val) : M val := t <~ find_tail fuel p xs; if truth t then head t else ret v_false.
(** any, srfi-1.ss:498-517 *)
Fixpoint any1_loop (fuel : nat) (p : proc) (x xs : val) : M val :=
  match fuel with
  | O => more
  | S fuel =>
    e <~ null_listq xs;
    if e then p [x]
    else r <~ p [x]; if truth r then ret r else d <~ tail xs; a <~ head xs; any1_loop fuel p a d
  end.
Fixpoint anyn_loop (fuel : nat) (p : proc) (cs ds : list val) : M val :=
  match fuel with
  | O => more
  | S fuel =>
    '(cs2, ds2) <~ cars_cdrs ds;
    if nullp cs2 then p cs else r <~ p cs; if truth r then ret r else anyn_loop fuel p cs2 ds2
  end.
Definition any (fuel : nat) (p : proc) (x : val) (xs : list val) : M val :=
  if nullp xs
  then e <~ null_listq x; if e then ret v_false else d <~ tail x; a <~ head x; any1_loop fuel p a d
  else '(cs, ds) <~ cars_cdrs (x :: xs); if nullp cs then ret v_false else anyn_loop fuel p cs ds.
(** every, srfi-1.ss:519-537 *)
Fixpoint every1_loop (fuel : nat) (p : proc) (x xs : val) : M val :=
  match fuel with
  | O => more
  | S fuel =>
    e <~ null_listq xs;
    if e then p [x]
    else r <~ p [x]; if truth r then d <~ tail xs; a <~ head xs; every1_loop fuel p a d else ret v_false
  end.
Fixpoint everyn_loop (fuel : nat) (p : proc) (cs ds : list val) : M val :=
  match fuel with
  | O => more
  | S fuel =>
    '(cs2, ds2) <~ cars_cdrs ds;
    if nullp cs2 then p cs else r <~ p cs; if truth r then everyn_loop fuel p cs2 ds2 else ret v_false
  end.
Definition every (fuel : nat) (p : proc) (x : val) (xs : list val) : M val :=
  if nullp xs
  then e <~ null_listq x; if e then ret v_true else d <~ tail x; a <~ head x; every1_loop fuel p a d
  else '(cs, ds) <~ cars_cdrs (x :: xs); if nullp cs then ret v_true else everyn_loop fuel p cs ds.
(** list-index, srfi-1.ss:539-554; None is #f *)
Fixpoint list_index1 (fuel : nat) (p : proc) (xs : val) (n : nat) : M (option nat) :=
  match fuel with
  | O => more
  | S fuel =>
    e <~ null_listq xs;
    if e then ret None
    else a <~ head xs; t <~ test p [a]; if t then ret (Some n) else d <~ tail xs; list_index1 fuel p d (S n)
  end.
Fixpoint list_indexn (fuel : nat) (p : proc) (xs : list val) (n : nat) : M (option nat) :=
  match fuel with
  | O => more
  | S fuel =>
    '(hs, ts) <~ cars_cdrs xs;
    if nullp hs then ret None else t <~ test p hs; if t then ret (Some n) else list_indexn fuel p ts (S n)
  end.
Definition list_index (fuel : nat) (p : proc) (x : val) (xs : list val) : M (option nat) :=
  if nullp xs then list_index1 fuel p x 0 else list_indexn fuel p (x :: xs) 0.
(** take-while, srfi-1.ss:556-563 *)
Fixpoint take_while (fuel : nat) (p : proc) (xs : val) : M val :=
  match fuel with
  | O => more
  | S fuel =>
    e <~ null_listq xs;
    if e then ret Nil
    else x <~ head xs; t <~ test p [x];
         if t then d <~ tail xs; r <~ take_while fuel p d; pair x r else ret Nil
  end.
(** the loop of take-while!, srfi-1.ss:568-576; that of span!, 600-609, asks null-list? and gives the rest *)
Fixpoint cut (fuel : nat) (p : proc) (prev rest : val) : M val :=
  match fuel with
  | O => more
  | S fuel =>
    q <~ pairq rest;
    if q then x <~ head rest; t <~ test p [x];
              if t then d <~ tail rest; cut fuel p rest d else _ <~ write_cdr prev Nil; ret rest
    else ret rest
  end.
(** take-while!, srfi-1.ss:565-576 *)
Definition take_while_x (fuel : nat) (p : proc) (xs : val) : M val :=
  e <~ null_listq xs;
  if e then ret Nil
  else a <~ head xs; t <~ test p [a]; if t then d <~ tail xs; _ <~ cut fuel p xs d; ret xs else ret Nil.
(** drop-while, srfi-1.ss:578-584 *)
Fixpoint drop_while (fuel : nat) (p : proc) (xs : val) : M val :=
  match fuel with
  | O => more
  | S fuel =>
    e <~ null_listq xs;
    if e then ret Nil else x <~ head xs; t <~ test p [x]; if t then d <~ tail xs; drop_while fuel p d else ret xs
  end.
(** span, srfi-1.ss:586-594 *)
Fixpoint span (fuel : nat) (p : proc) (xs : val) : M (val * val) :=
  match fuel with
  | O => more
  | S fuel =>
    e <~ null_listq xs;
    if e then ret (Nil, Nil)
    else x <~ head xs; t <~ test p [x];
         if t then d <~ tail xs; '(a, b) <~ span fuel p d; c <~ pair x a; ret (c, b) else ret (Nil, xs)
  end.
(** span!, srfi-1.ss:596-609 *)
Fixpoint cut_list (fuel : nat) (p : proc) (prev rest : val) : M val :=
  match fuel with
  | O => more
  | S fuel =>
    e <~ null_listq rest;
    if e then ret rest
    else x <~ head rest; t <~ test p [x];
         if t then d <~ tail rest; cut_list fuel p rest d else _ <~ write_cdr prev Nil; ret rest
  end.
Definition span_x (fuel : nat) (p : proc) (xs : val) : M (val * val) :=
  e <~ null_listq xs;
  if e then ret (Nil, xs)
  else a <~ head xs; t <~ test p [a]; if t then d <~ tail xs; s <~ cut_list fuel p xs d; ret (xs, s) else ret (Nil, xs).
(** break, break!: srfi-1.ss:611-619 *)
Definition break (fuel : nat) (p : proc) (xs : val) : M (val * val) := span fuel (complement p) xs.
Definition break_x (fuel : nat) (p : proc) (xs : val) : M (val * val) := span_x fuel (complement p) xs.
(** member and assoc, library/r4rs.ss:253-266 *)
Fixpoint member (fuel : nat) (x xs : val) (eq : proc) : M val :=
  match fuel with
  | O => more
  | S fuel =>
    q <~ pairq xs;
    if q then a <~ head xs; t <~ test eq [x; a]; if t then ret xs else d <~ tail xs; member fuel x d eq
    else ret v_false
  end.
Fixpoint assoc (fuel : nat) (key alist : val) (eq : proc) : M val :=
  match fuel with
  | O => more
  | S fuel =>
    if is_null alist then ret v_false
    else e <~ head alist; k <~ head e; t <~ test eq [key; k];
         if t then head alist else d <~ tail alist; assoc fuel key d eq
  end.
(** for-each of one list, library/r4rs.ss:294-300 *)
Fixpoint for_each1 (fuel : nat) (f : proc) (x : val) : M unit :=
  match fuel with
  | O => more
  | S fuel => q <~ pairq x; if q then a <~ head x; _ <~ f [a]; d <~ tail x; for_each1 fuel f d else ret tt
  end.

(** ** Deleting *)
(** (lambda (y) (not (x=? x y))), delete and delete!, srfi-1.ss:621-635 *)
Definition differs (eq : proc) (x : val) : proc :=
  fun args => match args with [y] => t <~ test eq [x; y]; ret (bool_val (negb t)) | _ => stop end.
Definition delete (fuel : nat) (x xs : val) (eq : proc) : M val := filter fuel (differs eq x) xs.
Definition delete_x (fuel : nat) (x xs : val) (eq : proc) : M val := filter_x fuel (differs eq x) xs.
(** delete-duplicates and delete-duplicates!, srfi-1.ss:637-663: [del] is delete or delete! *)
Fixpoint delete_duplicates_with (del : nat -> val -> val -> proc -> M val) (fuel : nat) (xs : val) (eq : proc) : M val :=
  match fuel with
  | O => more
  | S fuel =>
    e <~ null_listq xs;
    if e then ret Nil
    else x <~ head xs; d <~ tail xs;
         r <~ del fuel x d eq; ys <~ delete_duplicates_with del fuel r eq;
         if veq d ys then ret xs else pair x ys
  end.
Definition delete_duplicates := delete_duplicates_with delete.
Definition delete_duplicates_x := delete_duplicates_with delete_x.
(** alist-delete, alist-delete!, srfi-1.ss:665-679 *)
Definition other_key (eq : proc) (key : val) : proc :=
  fun args => match args with [x] => k <~ head x; t <~ test eq [key; k]; ret (bool_val (negb t)) | _ => stop end.
Definition alist_delete (fuel : nat) (key alist : val) (eq : proc) : M val := filter fuel (other_key eq key) alist.
Definition alist_delete_x (fuel : nat) (key alist : val) (eq : proc) : M val := filter_x fuel (other_key eq key) alist.

(** ** Lists as sets *)
(** %lset2<=, srfi-1.ss:899-902 *)
Definition in_list (fuel : nat) (eq : proc) (ys : val) : proc := fun args => match args with [x] => member fuel x ys eq | _ => stop end.
Definition lset2_le (fuel : nat) (eq : proc) (xs ys : val) : M val := every fuel (in_list fuel eq ys) xs [].
(** lset<=, srfi-1.ss:681-690 *)
Fixpoint lset_le_loop (fuel : nat) (eq : proc) (xs : val) (xss : list val) : M bool :=
  match xss with
  | [] => ret true
  | ys :: xss =>
    if veq xs ys then lset_le_loop fuel eq ys xss
    else r <~ lset2_le fuel eq xs ys; if truth r then lset_le_loop fuel eq ys xss else ret false
  end.
Definition lset_le (fuel : nat) (eq : proc) (xss : list val) : M bool :=
  match xss with [] => ret true | xs :: xss => lset_le_loop fuel eq xs xss end.
(** lset=, srfi-1.ss:692-702 *)
Fixpoint lset_eq_loop (fuel : nat) (eq : proc) (xs : val) (xss : list val) : M bool :=
  match xss with
  | [] => ret true
  | ys :: xss =>
    if veq xs ys then lset_eq_loop fuel eq ys xss
    else r <~ lset2_le fuel eq xs ys;
         if truth r then r <~ lset2_le fuel eq ys xs; if truth r then lset_eq_loop fuel eq ys xss else ret false
         else ret false
  end.
Definition lset_eq (fuel : nat) (eq : proc) (xss : list val) : M bool :=
  match xss with [] => ret true | xs :: xss => lset_eq_loop fuel eq xs xss end.
(** fold, srfi-1.ss:222-235, over the list of arguments *)
Fixpoint fold_args (f : val -> val -> M val) (xs : list val) (ans : val) : M val :=
  match xs with [] => ret ans | x :: xs => r <~ f x ans; fold_args f xs r end.
(** reduce, srfi-1.ss:266-269, over the list of arguments *)
Definition reduce_args (f : val -> val -> M val) (xs : list val) : M val :=
  match xs with [] => ret Nil | x :: xs => fold_args f xs x end.
(** lset-adjoin, srfi-1.ss:704-710 *)
Definition lset_adjoin (fuel : nat) (eq : proc) (xs : val) (ys : list val) : M val :=
  fold_args (fun y xs => r <~ member fuel y xs eq; if truth r then ret xs else pair y xs) ys xs.
(** lset-union, srfi-1.ss:712-726 *)
Definition same_as (eq : proc) (x : val) : proc := fun args => match args with [y] => eq [x; y] | _ => stop end.
Definition adjoin (fuel : nat) (eq : proc) : proc := fun args =>
  match args with [x; ys] => r <~ any fuel (same_as eq x) ys []; if truth r then ret ys else pair x ys | _ => stop end.
Definition lset_union (fuel : nat) (eq : proc) (xss : list val) : M val :=
  reduce_args (fun xs ys =>
    if is_null xs then ret ys else if is_null ys then ret xs else if veq xs ys then ret ys
    else fold fuel (adjoin fuel eq) ys xs []) xss.
(** every and any, srfi-1.ss:498-537, over the list of lists *)
Fixpoint every_list (p : val -> M bool) (xss : list val) : M bool :=
  match xss with [] => ret true | xs :: xss => t <~ p xs; if t then every_list p xss else ret false end.
Fixpoint any_list (p : val -> M bool) (xss : list val) : M bool :=
  match xss with [] => ret false | xs :: xss => t <~ p xs; if t then ret true else any_list p xss end.
Definition memberq (fuel : nat) (eq : proc) (x xs : val) : M bool := r <~ member fuel x xs eq; ret (truth r).
(** lset-intersection, srfi-1.ss:746-754 *)
Definition lset_intersection (fuel : nat) (eq : proc) (xs : val) (xss : list val) : M val :=
  let xss := List.filter (fun ys => negb (veq xs ys)) xss in
  e <~ any_list null_listq xss;
  if e then ret Nil
  else if nullp xss then ret xs
  else filter fuel (fun args => match args with [x] => t <~ every_list (memberq fuel eq x) xss; ret (bool_val t) | _ => stop end) xs.
(** lset-difference, srfi-1.ss:766-774 *)
Definition lset_difference (fuel : nat) (eq : proc) (xs : val) (xss : list val) : M val := fun h w =>
  let xss := List.filter (is_pair h) xss in
  (if nullp xss then ret xs
   else if existsb (veq xs) xss then ret Nil
   else filter fuel (fun args => match args with [x] => t <~ every_list (fun ys => t <~ memberq fuel eq x ys; ret (negb t)) xss; ret (bool_val t) | _ => stop end) xs) h w.
(** lset-diff+intersection, srfi-1.ss:815-824 *)
Definition lset_diff_intersection (fuel : nat) (eq : proc) (xs : val) (xss : list val) : M (val * val) :=
  e <~ every_list null_listq xss;
  if e then ret (xs, Nil)
  else if existsb (veq xs) xss then ret (Nil, xs)
  else partition fuel (fun args => match args with [x] => t <~ any_list (memberq fuel eq x) xss; ret (bool_val (negb t)) | _ => stop end) xs.
(** lset-xor, srfi-1.ss:786-798 *)
Definition lset_xor2 (fuel : nat) (eq : proc) (b a : val) : M val :=
  '(d, i) <~ lset_diff_intersection fuel eq a [b];
  if is_null d then lset_difference fuel eq b [a]
  else if is_null i then append2 b a
  else fold fuel (fun args => match args with [x; xs] => t <~ memberq fuel eq x i; if t then ret xs else pair x xs | _ => stop end) d b [].
Definition lset_xor (fuel : nat) (eq : proc) (xss : list val) : M val := reduce_args (lset_xor2 fuel eq) xss.
End Srfi1.
Arguments Ret {W A} a h w. Arguments Stop {W A}. Arguments More {W A}.
