(** Properties C35 and C36: import sets and cond-expand. *)
From Coq Require Import String ZArith List Bool Lia.
From Verif Require Import Number NumberProofs NumberText TextPort TextPortProofs Writer Reader ReaderProofs RoundTrip CondExpand Environment EnvironmentProofs.
Import ListNotations.
Open Scope Z_scope.

(** * C35 — import sets compose as renamings *)

(** Full statement: for every nesting of only, except, prefix and rename over a
    library, the imported names and the bindings they denote are those prescribed by
    R7RS ([denotes]), and the bindings are shared with the exporting library.

    Proved: the names and, at the time of the import, the values; sharing for the
    bindings that no prefix or rename applies to and that are not renamed by the
    library itself.  Missing: sharing for the others ([is_binding] says they are new
    cells), which is false; prefixes of and to names that are written otherwise than
    they are ([simple]), for which the names are wrong; exported names that the library
    does not define; libraries that are loaded from a file. *)
Theorem C35_import_sets_partial :
  forall inexact_text exported s w, set_ok inexact_text exported w s ->
  exists xs h, import_set inexact_text (form_of s) w = Ok (xs, World h (libs w)) /\
    extends (heap w) h /\ Forall2 (is_binding (heap w) h) xs (denotes exported s).
Proof. exact import_set_ok. Qed.
Print Assumptions C35_import_sets_partial.

(** An import makes the names of the set mean their bindings and leaves all other
    names alone: in the interaction environment always, elsewhere when none of them
    is bound already. *)
Theorem C35_import_partial :
  forall inexact_text exported interaction s second w,
  set_ok inexact_text exported w s -> NoDup (map bname (denotes exported s)) ->
  Forall (fun a => nth_error (heap w) a <> None) second ->
  (interaction = false -> forall b, In b (denotes exported s) -> assq_global (bname b) second (heap w) = None) ->
  exists second' w', import inexact_text interaction (form_of s) second w = Ok (second', w') /\ extends (heap w) (heap w') /\
    (forall b, In b (denotes exported s) ->
       exists x, assq_global (bname b) second' (heap w') = Some x /\ is_binding (heap w) (heap w') x b) /\
    (forall n, ~ In n (map bname (denotes exported s)) ->
       assq_global n second' (heap w') = assq_global n second (heap w)).
Proof. exact import_ok. Qed.
Print Assumptions C35_import_partial.

(** Outside the interaction environment, importing a set again changes nothing if it
    renames nothing. *)
Theorem C35_import_again_partial :
  forall inexact_text exported s second w, set_ok inexact_text exported w s ->
  Forall (fun b => changed b = false) (denotes exported s) ->
  (forall b, In b (denotes exported s) -> assq_global (bname b) second (heap w) = Some (location b)) ->
  exists w', import inexact_text false (form_of s) second w = Ok (second, w').
Proof. exact import_again. Qed.
Print Assumptions C35_import_again_partial.

(** A world with the library (l), which exports a and, as c, b *)
Definition no_text : nat -> list Z := fun _ => [].
Definition l_name : datum := Pair (Sym (codes "l")) Nil.
Definition l_exports : list export := [Export (codes "a") None 0%nat; Export (codes "b") (Some (codes "c")) 1%nat].
Definition l_world : world :=
  World [Cell (codes "a") (Value 1); Cell (codes "b") (Value 2)]
        [(codes "(l)", Lib (list_of (map spec_datum l_exports)) [1%nat; 0%nat])].
Definition l_exported (d : datum) : list binding := map binding_of l_exports.
Example C35_ex_ok : forall s, set_ok no_text l_exported l_world (Whole l_name) /\
  set_ok no_text l_exported l_world (Renamed (Prefixed (Except (Whole l_name) [codes "c"]) (codes "p:")) [(codes "p:a", s)]).
Proof.
  assert (L : library_ok no_text l_exported l_world l_name).
  { split; [exists (codes "l"), Nil; split; [reflexivity|cbn; intuition discriminate]|].
    exists (codes "(l)"), (Lib (list_of (map spec_datum l_exports)) [1%nat; 0%nat]), l_exports.
    split; [reflexivity|]. split; [reflexivity|]. split; [split; [reflexivity|repeat constructor]|reflexivity]. }
  intros s. split; [exact L|]. cbn [set_ok]. split; [exact L|]. split; [split; [discriminate|reflexivity]|].
  constructor; [split; [discriminate|reflexivity]|constructor].
Qed.
Example C35_ex : denotes l_exported (Renamed (Prefixed (Except (Whole l_name) [codes "c"]) (codes "p:")) [(codes "p:a", codes "z")])
    = [Bind (codes "z") 0 true] /\
  exists h, import_set no_text (form_of (Renamed (Prefixed (Except (Whole l_name) [codes "c"]) (codes "p:")) [(codes "p:a", codes "z")])) l_world
    = Ok ([4%nat], World h (libs l_world)) /\ nth_error h 4 = Some (Cell (codes "z") (Value 1)).
Proof. split; [reflexivity|]. eexists. split; reflexivity. Qed.

(** After (import (prefix (l) p:)), the assignment of 7 to a in the library is not
    seen through p:a, although R7RS has both name the same location.  The same holds
    for c, which the library itself exports under another name. *)
Definition assign (a : nat) (v : value) (h : list cell) : list cell :=
  firstn a h ++ match nth_error h a with Some c => [Cell (cell_name c) v] | None => [] end ++ skipn (S a) h.
Definition lookup (n : list Z) (second : list nat) (h : list cell) : option value :=
  match assq_global n second h with
  | Some a => match nth_error h a with Some c => Some (cell_value c) | None => None end
  | None => None
  end.
Theorem C35_sharing_refuted :
  exists second w, import no_text true (form_of (Prefixed (Whole l_name) (codes "p:"))) [] l_world = Ok (second, w) /\
    (let h := assign 0 (Value 7) (heap w) in
     lookup (codes "a") [1%nat; 0%nat] h = Some (Value 7) /\ lookup (codes "p:a") second h = Some (Value 1)) /\
    exists second' w', import no_text true (form_of (Whole l_name)) [] l_world = Ok (second', w') /\
      let h := assign 1 (Value 7) (heap w') in
      lookup (codes "b") [1%nat; 0%nat] h = Some (Value 7) /\ lookup (codes "c") second' h = Some (Value 2).
Proof. eexists _, _. split; [reflexivity|]. split; [split; reflexivity|]. eexists _, _. split; [reflexivity|]. split; reflexivity. Qed.
Print Assumptions C35_sharing_refuted.

(** For the same reason, a library that imports a renamed binding twice is refused,
    although both imports are of the same binding. *)
Theorem C35_twice_refuted :
  exists second w, import no_text false (form_of (Prefixed (Whole l_name) (codes "p:"))) [] l_world = Ok (second, w) /\
    import no_text false (form_of (Prefixed (Whole l_name) (codes "p:"))) second w = Raise.
Proof. eexists _, _. split; reflexivity. Qed.
Print Assumptions C35_twice_refuted.

(** The prefix is put before the written form of the name: a name with a blank gets
    the name of its notation. *)
Theorem C35_prefix_refuted :
  exists h w, import_set no_text (Pair (Sym (codes "prefix")) (Pair l_name (Pair (Sym (codes "p:")) Nil)))
      (World [Cell (codes "a b") (Value 1)] [(codes "(l)", Lib (Pair (Sym (codes "a b")) Nil) [0%nat])]) = Ok ([1%nat], World h w) /\
    nth_error h 1 = Some (Cell (codes "p:#""a b""") (Value 1)).
Proof. eexists _, _. split; reflexivity. Qed.
Print Assumptions C35_prefix_refuted.

(** * C36 — cond-expand selects the first clause whose requirement holds *)

(** Requirements ([requirement]) built from features, library, and, or, not and else
    have their Boolean meaning ([truth]), where the libraries are those defined so
    far.  Their names are data that can be read back; "else" is not a feature. *)
Theorem C36_requirements :
  forall inexact_value inexact_text features defined keys,
  map (write inexact_text) defined = map Some keys -> Forall (name_ok inexact_value) defined ->
  forall r, (forall n, In (inl n) (names r) -> n <> codes "else") -> (forall d, In (inr d) (names r) -> name_ok inexact_value d) ->
  exists b, test inexact_text features keys (encode r) = Ok b /\
    (b = true <-> truth (fun n => In n features) (fun d => In d defined) r).
Proof. exact test_truth. Qed.
Print Assumptions C36_requirements.

Theorem C36_first_clause :
  forall inexact_value inexact_text features defined keys,
  map (write inexact_text) defined = map Some keys -> Forall (name_ok inexact_value) defined ->
  forall cs, clauses_ok inexact_value cs ->
  let truth := truth (fun n => In n features) (fun d => In d defined) in
  let result := conditional_expand inexact_text features keys (clause_list cs) in
  (exists before r body after, cs = before ++ (r, body) :: after /\ truth r /\
     (forall r' b', In (r', b') before -> ~ truth r') /\ result = Ok body) \/
  ((forall r b, In (r, b) cs -> ~ truth r) /\ result = Raise).
Proof. exact expand_first. Qed.
Print Assumptions C36_first_clause.

(** A library that import would find in a file does not count as available. *)
Example C36_ex :
  conditional_expand no_text [codes "r7rs"; codes "full-unicode"] [codes "(scheme base)"]
    (clause_list [(And [Feature (codes "r7rs"); Not (Library (Pair (Sym (codes "scheme")) (Pair (Sym (codes "base")) Nil)))], Num (Small 1));
                  (Or [And []; Feature (codes "x")], Num (Small 2)); (Else, Num (Small 3))]) = Ok (Num (Small 2)).
Proof. reflexivity. Qed.
Example C36_ex_name : name_ok (fun _ _ => None) (Pair (Sym (text (codes "scheme"))) (Pair (Sym (text (codes "base"))) Nil)).
Proof.
  split; [|repeat constructor].
  repeat apply Rd_pair; [apply Rd_sym; left|apply Rd_sym; left|apply Rd_nil];
    (lit; apply identifier_bare; [|unfold initial; lia];
     repeat (apply Forall_cons; [split; [unfold codepoint; lia|cbn; lia]|]); apply Forall_nil).
Qed.
(** Malformed requirements are undefined behaviour. *)
Example C36_ex_malformed :
  test no_text [] [] (Pair (Sym (codes "not")) Nil) = Crash /\ test no_text [] [] (Pair (Sym (codes "library")) Nil) = Crash.
Proof. split; reflexivity. Qed.
