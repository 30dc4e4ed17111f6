(** Property theorems about map (C56) and apply (C57) of library/meevax.ss, on their
    compiled code. *)
From Coq Require Import String ZArith List Bool Lia.
From Verif Require Import Machine Generator Evaluate LibraryCode Reach Symbolic ContinuationProofs WindSpec TraceProgram ProgramText MapProofs PropertiesControl.
Import ListNotations.

(** ** C56: map *)
(** map calls the procedure once per row, with the elements of that row as arguments, up to
    the end of the shortest list, each call after the one before it; it returns the list of
    the values in the order of the rows, for any number of lists *)
Theorem C56_map : forall proc ghost own (Inv : ghost -> heap -> list gval -> list val -> frame -> Prop), program proc own Inv ->
  forall aim l a P f v vs Ls xs (K : val -> ghost -> list val -> frame -> Prop),
  lib P -> lst P xs (f :: v :: vs) -> Forall2 (lst P) (v :: vs) Ls ->
  each proc ghost Inv aim f (rows Ls) l a P (fun ys l' a' P' => forall P'' w, sub P' P'' -> lst P'' w ys -> K w l' a' P'') ->
  returns proc ghost Inv aim (global "map") xs l a P K.
Proof.
  intros proc ghost own Inv (Hp & Ok) aim l a P f v vs Ls xs K L X F H. change (global "map") with (VPtr 130).
  eapply (map_runs proc Hp _ _ _ Ok); eassumption.
Qed.
Print Assumptions C56_map.
(** What a row is *)
Theorem C56_rows : forall Ls i, Ls <> [] ->
  (i < length (rows Ls) <-> forall L, In L Ls -> i < length L) /\
  (forall row, nth_error (rows Ls) i = Some row -> length row = length Ls /\
    forall j L, nth_error Ls j = Some L -> nth_error row j = nth_error L i).
Proof.
  intros Ls i N.
  assert (Len : i < length (rows Ls) <-> forall L, In L Ls -> i < length L).
  { unfold rows. rewrite map_length, seq_length. induction Ls as [|L Ls IH]; [congruence|]. destruct Ls as [|M Ls].
    - cbn [shortest]. split; [intros H L' [<-|[]]; exact H|intros H; apply H; left; reflexivity].
    - change (shortest (L :: M :: Ls)) with (Nat.min (length L) (shortest (M :: Ls))). rewrite Nat.min_glb_lt_iff, IH by discriminate. split.
      + intros [A B] L' [<-|H]; [exact A|apply B, H].
      + intros H. split; [apply H; left; reflexivity|intros L' H'; apply H; right; exact H']. }
  split; [exact Len|]. intros row H. assert (Hi : i < length (rows Ls)) by (apply nth_error_Some; congruence). pose proof (proj1 Len Hi) as All.
  unfold rows in H, Hi. rewrite map_length, seq_length in Hi. rewrite nth_error_map in H.
  rewrite (nth_error_nth' _ 0) in H by (rewrite seq_length; exact Hi). rewrite seq_nth in H by exact Hi. cbn [option_map Nat.add] in H. injection H as <-.
  split; [apply map_length|]. intros j L HL. rewrite nth_error_map, HL. cbn [option_map]. symmetry. apply nth_error_nth'. apply All. eapply nth_error_In, HL.
Qed.
Print Assumptions C56_rows.
Open Scope string_scope.
Open Scope list_scope.
(** Three lists of different lengths; the order of the calls and of the values *)
Example C56_ex_rows : rows [[VImm 1; VImm 2; VImm 3]; [VImm 4; VImm 5]; [VImm 6; VImm 7; VImm 8]] = [[VImm 1; VImm 4; VImm 6]; [VImm 2; VImm 5; VImm 7]].
Proof. reflexivity. Qed.
Example C56_ex_one : notes "(define values (map (lambda (x) (note x) x) (list 'a 'b 'c)))
  (note (car values)) (note (cadr values)) (note (null? (cddr (cdr values))))" = Some (map text_of ["a"; "b"; "c"; "a"; "b"; "#t"]).
Proof. vm_compute. reflexivity. Qed.
Example C56_ex_many : notes "(map (lambda (x y z) (note x) (note y) (note z)) (list 'a 'b 'c) (list 'd 'e) (list 'f 'g 'h))" = Some (map text_of ["a"; "d"; "f"; "b"; "e"; "g"]).
Proof. vm_compute. reflexivity. Qed.

(** ** C57: apply *)
(** apply calls the procedure, in tail position, with the arguments before the last one
    followed by the elements of the last one *)
Theorem C57_apply : forall proc ghost own (Inv : ghost -> heap -> list gval -> list val -> frame -> Prop), program proc own Inv ->
  forall l h g a P xs f us v vs s e c d Q,
  Inv l h g a P -> lib P -> lst P xs (f :: us ++ [v]) -> lst P v vs ->
  (forall h' P' w, Inv l h' g a P' -> sub P P' -> lst P' w (us ++ vs) -> calls proc f w s e c d h' g a Q) ->
  calls proc (global "apply") xs s e c d h g a Q.
Proof.
  intros proc ghost own Inv (Hp & Ok) l h g a P xs f us v vs s e c d Q I L X V K. change (global "apply") with (VPtr 129). destruct us as [|u us].
  - eapply (apply_two proc Hp _ _ _ Ok); [exact I|exact L|exact X|]. intros h' P' I' U. eapply K; [exact I'|exact U|]. eapply lst_up; eassumption.
  - eapply (apply_many proc Hp _ _ _ Ok); eassumption.
Qed.
Print Assumptions C57_apply.
Example C57_ex : notes "(apply (lambda (x y z) (note z) (note y) (note x)) 'a (list 'b 'c))
  (apply note (list 'd))
  (apply (lambda xs (map note xs)) 'e 'f (list))" = Some (map text_of ["c"; "b"; "a"; "d"; "e"; "f"]).
Proof. vm_compute. reflexivity. Qed.
(** The state of C40_state: the invariant, the library and lists of any elements exist *)
Example C56_state : let P := fun q o => nth_error (C40_heap ++ [OPair (logger 0) VNil; OPair (global "list") (VPtr (first_logger + 10))]) q = Some o in
  traced 6 [] (C40_heap ++ [OPair (logger 0) VNil; OPair (global "list") (VPtr (first_logger + 10))]) (cells library_env) [VNil; VNil; VNil; VNil] P /\ lib P /\
  lst P (VPtr (first_logger + 11)) [global "list"; logger 0].
Proof.
  intros P. split; [|split].
  - split; [auto| |auto|reflexivity|].
    + intros i Hi. do 6 (destruct i as [|i]; [reflexivity|]). lia.
    + exists VNil, []. split; [reflexivity|]. split; [constructor|intros q o []].
  - intros q o H. unfold P, C40_heap. rewrite <- app_assoc, nth_error_app1; [exact H|]. apply nth_error_Some. congruence.
  - econstructor; [reflexivity|]. econstructor; [reflexivity|constructor].
Qed.
