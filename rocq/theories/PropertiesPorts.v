(** C71: ports. *)
From Coq Require Import ZArith List Bool Lia.
From Verif Require Import Number TextPort Sequence Ports PortsSpec PortsProofs.
Import ListNotations.
Open Scope Z_scope.

(** * C71 — bytes written to a port arrive, and bytes read from a port are those of its source, in order *)

(** Full statement: without [all_agree], and with equal replies.  Missing: what [agrees] leaves out and [same_reply]
    allows, each refuted below; the sizes that no machine word holds; NUL in text (refuted as C16). *)
Theorem C71_history_partial : forall d ops s rs,
  prescribed_history (initial_state d) ops = Some (s, rs) -> all_agree (initial_state d) ops ->
  exists w rs', run (World [] d) ops = Ok (w, rs') /\ same_replies ops rs' rs /\
    (forall n, files w n = disk s n) /\
    (forall a bs, thing_at s a = Some (Vector bs) -> find w a = Some (Bytes bs)).
Proof.
  intros d ops s rs P G. destruct (run_ok ops _ _ _ _ (related_initial d) P G) as (w & rs' & E & R & S).
  exists w, rs'. split; [exact E|]. split; [exact S|]. pose proof R as (_ & D & _). split; [exact D|].
  intros a bs T. destruct (related_at _ _ _ _ R T) as (o & Eo & So). inversion So; subst. exact Eo.
Qed.
Print Assumptions C71_history_partial.

(** From any state reached that way the next operation is as prescribed *)
Theorem C71_step_partial : forall w s op s' r,
  related w s -> prescribed s op = Some (s', r) -> agrees s op ->
  exists w' r0, step w op = Ok (w', r0) /\ related w' s' /\ same_reply op r0 r.
Proof. exact step_ok. Qed.
Print Assumptions C71_step_partial.

(** A file written through a binary port, closed, and opened again gives its bytes, one by one, then the end of file *)
Definition write_then_read (n : nat) (bs : list Z) : list operation :=
  Open_binary_output_file n :: map (fun b => Write_u8 (Small b) 0) bs ++
  [Close_port 0; Open_binary_input_file n] ++ map (fun _ => Read_u8 1) bs ++ [Read_u8 1].
Definition written_then_read (bs : list Z) : list reply :=
  Reference 0 :: map (fun _ => Unspecified) bs ++ [Unspecified; Reference 1] ++ map Integer bs ++ [Eof].
Lemma history_app ops1 ops2 : forall s s1 rs1, prescribed_history s ops1 = Some (s1, rs1) ->
  prescribed_history s (ops1 ++ ops2) =
  match prescribed_history s1 ops2 with Some (s2, rs2) => Some (s2, rs1 ++ rs2) | None => None end.
Proof.
  induction ops1 as [|op ops1 IH]; cbn [prescribed_history app]; intros s s1 rs1 E.
  - injection E as <- <-. destruct (prescribed_history s ops2) as [[]|]; reflexivity.
  - destruct (prescribed s op) as [[s' r]|]; [|discriminate].
    destruct (prescribed_history s' ops1) as [[s2 rs2]|] eqn:E2; [|discriminate]. injection E as <- <-.
    rewrite (IH _ _ _ E2). destruct (prescribed_history s2 ops2) as [[]|]; reflexivity.
Qed.
Lemma writes_prescribed n d bs : forall w, Forall (fun b => 0 <= b <= 255) bs ->
  prescribed_history (State [Sink (Disk n) false w true] d) (map (fun b => Write_u8 (Small b) 0) bs) =
  Some (State [Sink (Disk n) false (w ++ bs) true] d, map (fun _ => Unspecified) bs).
Proof.
  induction bs as [|b bs IH]; intros w F; cbn [map prescribed_history].
  - rewrite app_nil_r. reflexivity.
  - inversion F; subst. cbn [prescribed thing_at nth_error things integer]. unfold byte.
    rewrite (proj2 (Z.leb_le 0 b)), (proj2 (Z.leb_le b 255)) by lia. cbn [andb change firstn skipn things disk app].
    unfold change. cbn [things disk firstn skipn app]. rewrite (IH (w ++ [b])) by assumption. rewrite <- app_assoc. reflexivity.
Qed.
Lemma reads_prescribed n d t bs : forall pre,
  prescribed_history (State [t; Source (Disk n) (pre ++ bs) (length pre) true] d) (map (fun _ => Read_u8 1) bs ++ [Read_u8 1]) =
  Some (State [t; Source (Disk n) (pre ++ bs) (length (pre ++ bs)) true] d, map Integer bs ++ [Eof]).
Proof.
  induction bs as [|b bs IH]; intros pre; cbn [map app prescribed_history].
  - cbn [prescribed thing_at nth_error things]. rewrite app_nil_r, (proj2 (nth_error_None pre (length pre))) by lia. reflexivity.
  - cbn [prescribed thing_at nth_error things]. rewrite nth_error_app2, Nat.sub_diag by lia. cbn [nth_error].
    unfold change. cbn [things disk firstn skipn app].
    specialize (IH (pre ++ [b])). rewrite <- app_assoc, app_length in IH. cbn [app length] in IH. rewrite Nat.add_1_r in IH. rewrite IH.
    reflexivity.
Qed.
Lemma all_agree_easy ops : (forall s op, In op ops -> agrees s op) -> forall s, all_agree s ops.
Proof.
  induction ops as [|op ops IH]; intros K s; cbn; [exact I|]. split; [apply K; cbn; auto|].
  destruct (prescribed s op) as [[s' r]|]; [|exact I]. apply IH. intros. apply K. cbn; auto.
Qed.
Theorem C71_file_round_trip : forall n d bs, Forall (fun b => 0 <= b <= 255) bs ->
  exists w, run (World [] d) (write_then_read n bs) = Ok (w, written_then_read bs) /\ files w n = Some bs.
Proof.
  intros n d bs F.
  assert (P : exists s, prescribed_history (initial_state d) (write_then_read n bs) = Some (s, written_then_read bs) /\ disk s n = Some bs).
  { eexists. split.
    - unfold write_then_read, written_then_read. cbn [prescribed_history prescribed unused initial_state things existsb negb add store_file disk app length].
      rewrite (history_app _ _ _ _ _ (writes_prescribed n _ bs [] F)). cbn [app].
      cbn [prescribed_history prescribed thing_at things nth_error change save store_file disk contents firstn skipn app unused existsb on_file negb add length].
      rewrite Nat.eqb_refl. cbn [add things disk length app].
      pose proof (fun t d => reads_prescribed n d t bs []) as K. cbn [app length] in K. unfold unused, add, change, store_file. cbn [things disk firstn skipn app existsb on_file orb negb length]. rewrite K. reflexivity.
    - cbn. rewrite Nat.eqb_refl. reflexivity. }
  destruct P as (s & P & D). destruct (C71_history_partial d _ _ _ P) as (w & rs' & E & S & Fw & _).
  - apply all_agree_easy. intros s0 op I. unfold write_then_read in I. cbn in I. rewrite !in_app_iff in I. cbn in I.
    rewrite in_app_iff, !in_map_iff in I. cbn in I.
    destruct I as [<-|[(b & <- & _)|[<-|[<-|[(b & <- & _)|[<-|[]]]]]]]; exact I.
  - exists w. rewrite E. split; [|rewrite Fw; exact D]. f_equal. f_equal.
    assert (N : forall op r r', In op (write_then_read n bs) -> same_reply op r r' -> r = r').
    { intros op r r' I H. unfold write_then_read in I. cbn in I. rewrite !in_app_iff in I. cbn in I.
      rewrite in_app_iff, !in_map_iff in I. cbn in I.
      destruct I as [<-|[(b & <- & _)|[<-|[<-|[(b & <- & _)|[<-|[]]]]]]]; exact H. }
    clear -S N. induction S; [reflexivity|]. f_equal; [eapply N; [left; reflexivity|eassumption]|]. apply IHS. intros. eapply N; [right|]; eassumption.
Qed.
Print Assumptions C71_file_round_trip.

(** Non-vacuity *)
Definition no_files : nat -> option (list Z) := fun _ => None.
Definition bytes_of (w : world) (a : nat) : list Z := match find w a with Some (Bytes v) => v | _ => [] end.
Definition observe (ops : list operation) (a : nat) : option (list reply * list Z) :=
  match run (World [] no_files) ops with Ok (w, rs) => Some (rs, bytes_of w a) | _ => None end.
Definition expected (ops : list operation) (a : nat) : option (list reply * list Z) :=
  match prescribed_history (initial_state no_files) ops with
  | Some (s, rs) => Some (rs, match thing_at s a with Some (Vector v) => v | _ => [] end)
  | None => None
  end.
Example C71_example_read :
  let ops := [Bytevector [1; 2; 3; 4]; Open_input_bytevector 0; Peek_u8 1; Read_u8 1; U8_ready 1; Read_bytevector (Small 2) 1; Read_u8 1; Read_u8 1] in
  observe ops 2 = Some ([Reference 0; Reference 1; Integer 1; Integer 1; Boolean true; Reference 2; Integer 4; Eof], [2; 3]) /\
  expected ops 2 = observe ops 2 /\ all_agree (initial_state no_files) ops.
Proof. split; [vm_compute; reflexivity|]. split; [vm_compute; reflexivity|]. cbn. unfold small. cbn. repeat split; try lia; intros [? ?]; lia. Qed.
Example C71_example_write :
  let ops := [Open_output_bytevector; Write_u8 (Small 9) 0; Get_output_bytevector 0; Bytevector [5; 6; 7]; Write_bytevector 2 0 (Some (Small 1)) None;
              Get_output_bytevector 0] in
  observe ops 3 = Some ([Reference 0; Unspecified; Reference 1; Reference 2; Unspecified; Reference 3], [9; 6; 7]) /\ expected ops 3 = observe ops 3 /\
  observe ops 1 = Some ([Reference 0; Unspecified; Reference 1; Reference 2; Unspecified; Reference 3], [9]).
Proof. vm_compute. repeat split. Qed.
Example C71_example_string :
  option_map fst (observe [Open_output_string; Write_string [97; 0x3042; 98] 0 (Some (Small 1)) None; Write_char 99 0; Get_output_string 0] 0)
  = Some [Reference 0; Unspecified; Unspecified; Characters [0x3042; 98; 99]].
Proof. vm_compute. reflexivity. Qed.
Example C71_example_file :
  exists w, run (World [] no_files) (write_then_read 7 [1; 255; 0]) =
    Ok (w, [Reference 0; Unspecified; Unspecified; Unspecified; Unspecified; Reference 1; Integer 1; Integer 255; Integer 0; Eof]).
Proof. eexists. vm_compute. reflexivity. Qed.

(** (read-bytevector 4 port), port having three bytes left: R7RS wants them, the program gives the end-of-file object *)
Theorem C71_short_read_refuted :
  let ops := [Bytevector [1; 2; 3]; Open_input_bytevector 0; Read_bytevector (Small 4) 1] in
  expected ops 2 = Some ([Reference 0; Reference 1; Reference 2], [1; 2; 3]) /\
  observe ops 2 = Some ([Reference 0; Reference 1; Eof], []).
Proof. vm_compute. split; reflexivity. Qed.
Print Assumptions C71_short_read_refuted.
(** u8-ready? of a bytevector port at its end *)
Theorem C71_ready_refuted :
  let ops := [Bytevector []; Open_input_bytevector 0; U8_ready 1] in
  expected ops 2 = Some ([Reference 0; Reference 1; Boolean true], []) /\ observe ops 2 = Some ([Reference 0; Reference 1; Boolean false], []).
Proof. vm_compute. split; reflexivity. Qed.
Print Assumptions C71_ready_refuted.
(** At the end of a file: peek-u8 gives -1 and read-bytevector an empty bytevector instead of the end-of-file object *)
Theorem C71_end_of_file_refuted :
  let opens := [Open_binary_output_file 0; Close_port 0; Open_binary_input_file 0] in
  expected (opens ++ [Peek_u8 1]) 2 = Some ([Reference 0; Unspecified; Reference 1; Eof], []) /\
  observe (opens ++ [Peek_u8 1]) 2 = Some ([Reference 0; Unspecified; Reference 1; Integer (-1)], []) /\
  expected (opens ++ [Read_bytevector (Small 4) 1]) 2 = Some ([Reference 0; Unspecified; Reference 1; Eof], []) /\
  observe (opens ++ [Read_bytevector (Small 4) 1]) 2 = Some ([Reference 0; Unspecified; Reference 1; Reference 2], []).
Proof. vm_compute. repeat split. Qed.
Print Assumptions C71_end_of_file_refuted.
(** read-bytevector! returns an unspecified value, not the number of bytes *)
Theorem C71_read_into_refuted :
  let ops := [Bytevector [1; 2; 3]; Open_input_bytevector 0; Bytevector [0; 0; 0; 0]; Read_bytevector_into 2 1 (Some (Small 1)) (Some (Small 3))] in
  expected ops 2 = Some ([Reference 0; Reference 1; Reference 2; Integer 2], [0; 1; 2; 0]) /\
  observe ops 2 = Some ([Reference 0; Reference 1; Reference 2; Unspecified], [0; 1; 2; 0]).
Proof. vm_compute. split; reflexivity. Qed.
Print Assumptions C71_read_into_refuted.
(** a closed bytevector port says it is open, and can still be read *)
Theorem C71_closed_refuted :
  let ops := [Bytevector [1]; Open_input_bytevector 0; Close_port 1; Port_open 1] in
  expected ops 2 = Some ([Reference 0; Reference 1; Unspecified; Boolean false], []) /\
  observe ops 2 = Some ([Reference 0; Reference 1; Unspecified; Boolean true], []) /\
  option_map fst (observe (ops ++ [Read_u8 1]) 2) = Some [Reference 0; Reference 1; Unspecified; Boolean true; Integer 1].
Proof. vm_compute. repeat split. Qed.
Print Assumptions C71_closed_refuted.
