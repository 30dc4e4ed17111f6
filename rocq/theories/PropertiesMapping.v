(** C118: map and for-each, and their companions for strings and vectors, call the procedure once for each row of elements, from
    the first to the last, as often as the shortest argument has elements. *)
From Coq Require Import ZArith List Bool PeanoNat.
From Verif Require Import Lists ListsProofs Srfi1 Srfi1Spec Mapping MappingSpec MappingProofs.
Import ListNotations.

(** Lists of which one ends after n elements and the others have at least n, be they longer, dotted or circular. The values come back in the order of the
    elements; when a call does not return (an error, an escape), map does not either and no later call is made. Fuel greater than n is enough. *)
Theorem C118_map : forall W n h vs xss (f : proc (W := W)) w fuel, only_adds h f -> cut h n vs xss -> n < fuel ->
  makes f (map_ fuel f vs) (first_rows n xss) (fun rs r h' => plist h' r rs) h w.
Proof. intros. eapply map_ok; eassumption. Qed.
Theorem C118_for_each : forall W n h vs xss (f : proc (W := W)) w fuel, only_adds h f -> cut h n vs xss -> n < fuel ->
  makes f (for_each fuel f vs) (first_rows n xss) (fun _ _ _ => True) h w.
Proof. intros. eapply for_each_ok; eassumption. Qed.
(** of one list for-each also accepts a dotted one *)
Theorem C118_for_each_dotted : forall W h v ps xs z (f : proc (W := W)) w fuel, only_adds h f -> seg h v ps xs z -> ends h z -> length xs < fuel ->
  makes f (for_each fuel f [v]) (each xs) (fun _ _ _ => True) h w.
Proof. intros. eapply for_each1_ok; eassumption. Qed.
(** string-map and vector-map: the new string or vector has the values in the order of the elements *)
Theorem C118_sequence_map : forall W h xss (f : proc (W := W)) w fuel, only_adds h f -> xss <> [] -> shortest xss < fuel ->
  makes f (sequence_map fuel f xss) (rows xss) (fun rs r _ => r = rs) h w.
Proof. intros. apply sequence_map_ok; assumption. Qed.
Theorem C118_sequence_for_each : forall W h xss (f : proc (W := W)) w fuel, only_adds h f -> xss <> [] -> shortest xss < fuel ->
  makes f (sequence_for_each fuel f xss) (rows xss) (fun _ _ _ => True) h w.
Proof. intros. apply sequence_for_each_ok; assumption. Qed.

(** A procedure that notes its arguments, conses, and returns the last argument; it escapes at 9. *)
Definition noting : proc (W := list (list val)) := fun args h w =>
  if existsb (veq (Imm 9)) args then Stop else Ret (last args Nil) (h ++ [Obj true Nil Nil]) (w ++ [args]).
Example C118_noting : forall h, only_adds h noting.
Proof.
  intros h args h1 w r h' w' _ E. unfold noting in E. destruct (existsb (veq (Imm 9)) args); [discriminate|]. injection E as _ <- _. exists [Obj true Nil Nil]. reflexivity.
Qed.
(** a circle of one pair, a list of two elements and a list of three with 9 in it *)
Definition three_lists : heap :=
  [Obj true (Imm 1) (Ptr 0); Obj true (Imm 2) (Ptr 2); Obj true (Imm 3) Nil; Obj true (Imm 4) (Ptr 4); Obj true (Imm 9) (Ptr 5); Obj true (Imm 5) Nil].
Example C118_ex_cut : cut three_lists 2 [Ptr 0; Ptr 1] [[Imm 1; Imm 1]; [Imm 2; Imm 3]].
Proof.
  assert (S1 : seg three_lists (Ptr 1) [1; 2] [Imm 2; Imm 3] Nil) by (econstructor; [reflexivity|]; econstructor; [reflexivity|]; constructor).
  split; [|split].
  - constructor; [|constructor; [|constructor]].
    + exists [0; 0], (Ptr 0). econstructor; [reflexivity|]. econstructor; [reflexivity|]. constructor.
    + exists [1; 2], Nil. exact S1.
  - repeat constructor.
  - right. left. exists [Imm 2; Imm 3]. split; [exists [1; 2]; exact S1|reflexivity].
Qed.
Example C118_ex_map : match map_ 3 noting [Ptr 0; Ptr 1] three_lists [] with
  | Ret r h' w' => w' = [[Imm 1; Imm 2]; [Imm 1; Imm 3]] /\ spread_all r h' w' = Ret [Imm 2; Imm 3] h' w'
  | _ => False end.
Proof. vm_compute. split; reflexivity. Qed.
Example C118_ex_escape : map_ 4 noting [Ptr 3; Ptr 0] three_lists [] = Stop.
Proof. reflexivity. Qed.
Example C118_ex_vector : match sequence_map 4 noting [[Imm 1; Imm 2; Imm 3]; [Imm 6; Imm 7]] [] [] with
  | Ret r _ w' => r = [Imm 6; Imm 7] /\ w' = [[Imm 1; Imm 6]; [Imm 2; Imm 7]]
  | _ => False end.
Proof. vm_compute. split; reflexivity. Qed.
Example C118_ex_for_each : match for_each 4 noting [Ptr 1] three_lists [] with Ret _ _ w' => w' = [[Imm 2]; [Imm 3]] | _ => False end.
Proof. reflexivity. Qed.

Print Assumptions C118_map.
Print Assumptions C118_for_each.
Print Assumptions C118_for_each_dotted.
Print Assumptions C118_sequence_map.
Print Assumptions C118_sequence_for_each.
