(** Property C115: the types of objects.  The model is in Types.v. *)
From Coq Require Import NArith ZArith List Bool Lia.
From Verif Require Import NanBox Types.
Import ListNotations.
Open Scope N_scope.

(** The predicates of R7RS 3.2, of which no object satisfies more than one *)
Definition disjoint_predicates : list (heap -> N -> bool) :=
  [boolean_p; bytevector_p; char_p; eof_object_p; null_p; number_p; pair_p; port_p; procedure_p; string_p; symbol_p; vector_p].
Definition holding (ps : list (heap -> N -> bool)) (h : heap) (x : N) : nat := list_sum (map (fun p => Nat.b2n (p h x)) ps).

(** What the predicates say depends only on the type of the object *)
Lemma is_also_type u h x : is_also u h x = match type_in h x with Class c => truthy x && (class_eqb u Pair || derived 5 u c) | Immediate _ => false end.
Proof.
  unfold is_also, type_in, get, truthy. destruct (signature x =? signature_of TPtr); [destruct (h (payload x)); reflexivity|].
  destruct (type_of x); reflexivity.
Qed.
Theorem C115_disjoint : forall h x, (holding disjoint_predicates h x <= 1)%nat.
Proof.
  intros h x. unfold holding, disjoint_predicates, port_p, boolean_p, bytevector_p, char_p, eof_object_p, null_p, number_p, pair_p, procedure_p, string_p, symbol_p, vector_p.
  cbn [map existsb]. rewrite is_also_type. unfold is.
  destruct (type_in h x) as [[]|c]; [cbn; lia ..|]. destruct (truthy x); destruct c; try match goal with e : element |- _ => destruct e end; vm_compute; lia.
Qed.
Print Assumptions C115_disjoint.

(** Every value is recognised: the predicates that R7RS or a SRFI requires to hold of a value, by the class it is made of *)
Inductive kind := KBoolean | KBytevector | KChar | KEof | KNull | KNumber | KPair | KPort | KProcedure | KString | KSymbol | KVector | KOther.
Definition predicate_of (k : kind) : heap -> N -> bool :=
  match k with
  | KBoolean => boolean_p | KBytevector => bytevector_p | KChar => char_p | KEof => eof_object_p | KNull => null_p | KNumber => number_p | KPair => pair_p
  | KPort => port_p | KProcedure => procedure_p | KString => string_p | KSymbol => symbol_p | KVector => vector_p | KOther => fun h x => Nat.eqb (holding disjoint_predicates h x) 0
  end.
(** R7RS 6.1-6.13: what the objects of a class are to the program; None for the classes of which no objects are made.
    Errors, records of the machine, environments and the unspecified value are objects of other types; so are boxes (SRFI 111) and homogeneous vectors but bytevectors. *)
Definition kind_of_class (c : class) : option kind :=
  match c with
  | Pair => Some KPair
  | Closure | Continuation | Procedure => Some KProcedure
  | Complex | LargeInteger | RatioNumber => Some KNumber
  | Character => Some KChar
  | Symbol => Some KSymbol
  | String => Some KString
  | Vector => Some KVector
  | Homogeneous U8 => Some KBytevector
  | Eof => Some KEof
  | BinaryInputFilePort | BinaryOutputFilePort | InputFilePort | OutputFilePort | InputStringPort | OutputStringPort
  | InputU8VectorPort | OutputU8VectorPort | StandardInputPort | StandardOutputPort | StandardErrorPort => Some KPort
  | DynamicEnvironment | Identifier | Port | InputPort | OutputPort | BinaryPort | TextualPort | BinaryInputPort | BinaryOutputPort | TextualInputPort | TextualOutputPort => None
  | _ => Some KOther
  end.
Lemma some_payload x a : truthy x = true -> get x = Some a -> payload x = a.
Proof. unfold get, truthy. intros ->. generalize (payload x). intros n H. congruence. Qed.
Lemma pointer_truthy a : a < 2 ^ 48 -> truthy (box (VPtr a)) = true /\ get (box (VPtr a)) = Some a /\ payload (box (VPtr a)) = a.
Proof.
  intros B. destruct (get_is_pointer (VPtr a) B) as [G T]. split; [exact T|]. split; [exact G|].
  exact (some_payload _ _ T G).
Qed.
Lemma pointer_type h a c : a < 2 ^ 48 -> h a = Some c -> type_in h (box (VPtr a)) = Class c.
Proof. intros B E. destruct (pointer_truthy a B) as (T & _ & P). unfold type_in. rewrite T, P, E. reflexivity. Qed.
Theorem C115_recognised : forall h a c k, a < 2 ^ 48 -> h a = Some c -> kind_of_class c = Some k -> predicate_of k h (box (VPtr a)) = true.
Proof.
  intros h a c k B E K. pose proof (pointer_type h a c B E) as T. destruct (pointer_truthy a B) as (Y & _).
  unfold predicate_of, holding, disjoint_predicates. destruct k; unfold port_p, boolean_p, bytevector_p, char_p, eof_object_p, null_p, number_p, pair_p, procedure_p, string_p, symbol_p, vector_p.
  all: cbn [map existsb]; rewrite ?is_also_type; unfold is; rewrite T, ?Y.
  all: destruct c; try match goal with e : element |- _ => destruct e end; cbn [kind_of_class] in K; try discriminate K; vm_compute; reflexivity.
Qed.
Print Assumptions C115_recognised.
Lemma immediate_type h v : representable v -> (forall a, v <> VPtr a) -> (forall c, v <> VChar c) -> type_in h (box v) = Immediate (tag_of v).
Proof.
  intros R N C. destruct (get_is_pointer v R) as [_ T]. destruct (store_then_load v R) as [Y _]. unfold type_in.
  rewrite T, Y. destruct v; try reflexivity; [exfalso; eapply C; reflexivity|exfalso; eapply N; reflexivity].
Qed.
Theorem C115_immediate : forall h v, representable v ->
  match v with
  | VBool _ => boolean_p h (box v) = true
  | VInt _ | VFloat _ | VDouble _ => number_p h (box v) = true
  | VNull => null_p h (box v) = true
  | VInstr _ => holding disjoint_predicates h (box v) = 0%nat
  | VChar _ => char_p h (box v) = true
  | VPtr _ => True
  end.
Proof.
  intros h v R.
  assert (D : match v with VPtr _ | VChar _ => True | _ => type_in h (box v) = Immediate (tag_of v) end).
  { destruct v; try exact Logic.I; apply immediate_type; try exact R; intros; discriminate. }
  destruct v; try exact Logic.I.
  all: unfold holding, disjoint_predicates, port_p, boolean_p, bytevector_p, char_p, eof_object_p, null_p, number_p, pair_p, procedure_p, string_p, symbol_p, vector_p.
  all: cbn [map existsb]; rewrite ?is_also_type; unfold is; try (rewrite D; reflexivity).
  destruct (get_is_pointer (VChar cp) R) as [_ T]. destruct (store_then_load (VChar cp) R) as [Y _]. unfold type_in. rewrite T, Y. reflexivity.
Qed.
Print Assumptions C115_immediate.

(** R7RS 6.13: a port is either an input port or an output port here, and either binary or textual *)
Theorem C115_ports : forall h x, (forall a c, h a = Some c -> kind_of_class c <> None) ->
  (port_p h x = xorb (input_port_p h x) (output_port_p h x)) /\ (port_p h x = xorb (binary_port_p h x) (textual_port_p h x)) /\
  (input_port_p h x && output_port_p h x = false) /\ (binary_port_p h x && textual_port_p h x = false).
Proof.
  intros h x M. unfold port_p, input_port_p, output_port_p, binary_port_p, textual_port_p, is_also.
  destruct (get x) as [a|]; [|repeat split; reflexivity]. destruct (h a) as [c|] eqn:E; [|repeat split; reflexivity]. specialize (M a c E).
  destruct c; try (exfalso; apply M; reflexivity); try match goal with e : element |- _ => destruct e end; vm_compute; repeat split; reflexivity.
Qed.
Print Assumptions C115_ports.
(** R7RS 6.11: file errors and read errors are error objects and not both; identifiers contain the symbols *)
Theorem C115_errors : forall h x, (file_error_p h x = true -> error_object_p h x = true /\ read_error_p h x = false) /\ (read_error_p h x = true -> error_object_p h x = true) /\
  (error_object_p h x = true -> holding disjoint_predicates h x = 0%nat) /\ (symbol_p h x = true -> identifier_p h x = true) /\ (box_p h x = true -> holding disjoint_predicates h x = 0%nat).
Proof.
  intros h x. unfold holding, disjoint_predicates, port_p, boolean_p, bytevector_p, char_p, eof_object_p, null_p, number_p, pair_p, procedure_p, string_p, symbol_p, vector_p.
  unfold file_error_p, read_error_p, error_object_p, identifier_p, box_p. cbn [map existsb]. rewrite !is_also_type. unfold is.
  assert (Y : match type_in h x with Class Character => True | Class _ => truthy x = true | Immediate _ => True end).
  { unfold type_in. destruct (truthy x) eqn:T; [destruct (h (payload x)) as [[]|]; exact Logic.I || reflexivity|]. destruct (type_of x); exact Logic.I. }
  revert Y. generalize (type_in h x) (truthy x). clear h x. intros t b Y.
  destruct t as [[]|c]; [vm_compute; repeat split; discriminate ..|].
  destruct b; destruct c; try match goal with e : element |- _ => destruct e end; try discriminate Y; vm_compute; repeat split; discriminate || reflexivity.
Qed.
Print Assumptions C115_errors.

(** ** Conversions *)
(** The conversion to a class other than pair gives the object itself if it is of that class, and is refused otherwise *)
Theorem C115_conversion_partial : forall u h x, u <> Pair ->
  as_class u h x = (if is_also u h x then match get x with Some a => Converted (VPtr a) | None => Refused end else Refused) /\
  (is_also u h x = true -> exists a, get x = Some a) /\
  (forall a, a < 2 ^ 48 -> h a = Some u -> as_class u h (box (VPtr a)) = Converted (VPtr a)).
Proof.
  intros u h x N. assert (P : class_eqb u Pair = false) by (destruct (class_eqb u Pair) eqn:C; [apply class_eqb_eq in C; contradiction|reflexivity]).
  unfold as_class. rewrite P. split; [reflexivity|]. split.
  - unfold is_also. destruct (get x) as [a|]; [intros _; exists a; reflexivity|discriminate].
  - intros a B E. destruct (pointer_truthy a B) as (_ & G & _). unfold is_also. rewrite G, E.
    assert (S : derived 5 u u = true) by (cbn [derived]; rewrite (proj2 (class_eqb_eq u u) eq_refl); reflexivity).
    rewrite S, orb_true_r. reflexivity.
Qed.
Print Assumptions C115_conversion_partial.
(** Conversions to double, small_integer, float and bool are never refused, whatever the object is, and the address in a word that is none is followed for pairs: what C51 shows of car.
    The double that as<double> gives for a small integer is a NaN, so that (flabs 1) is +nan.0 rather than an error. *)
Theorem C115_conversion_refuted :
  (forall t x, as_immediate t x <> Refused) /\
  (forall h v, representable v -> (forall a, v <> VPtr a) -> as_class Pair h (box v) = Undefined) /\
  (forall z, (- 2 ^ 31 <= z < 2 ^ 31)%Z -> exists b, as_immediate TDouble (box (VInt z)) = Converted (VDouble b) /\ is_nan b = true).
Proof.
  split; [intros; discriminate|]. split.
  - intros h v R N. unfold as_class. replace (class_eqb Pair Pair) with true by reflexivity. destruct (get_is_pointer v R) as [-> _].
    destruct v; try reflexivity. exfalso. eapply N. reflexivity.
  - intros z B. exists (box (VInt z)). split; [reflexivity|]. unfold is_nan, box. cbn [signature_of].
    assert (L : int32_bits z < 2 ^ 32). { unfold int32_bits. change (2 ^ 32) with (Z.to_N (2 ^ 32)). pose proof (Z.mod_pos_bound z (2 ^ 32) ltac:(lia)). lia. }
    rewrite !N.land_lor_distr_l.
    assert (H : N.land (int32_bits z) mask_exponent = 0).
    { apply N.bits_inj_0. intros i. rewrite N.land_spec. destruct (N.ltb_spec i 32) as [I|I].
      - assert (X : N.testbit mask_exponent i = false). { change mask_exponent with (N.shiftl 0x7FF 52). apply N.shiftl_spec_low. lia. } rewrite X, andb_false_r. reflexivity.
      - rewrite N.bits_above_log2; [reflexivity|]. destruct (N.eq_dec (int32_bits z) 0) as [->|NZ]; [cbn; lia|]. apply N.log2_lt_pow2; [lia|]. eapply N.lt_le_trans; [exact L|]. apply N.pow_le_mono_r; lia. }
    rewrite H. replace (N.lor (N.land 0x7FFA000000000000 mask_exponent) 0 =? mask_exponent) with true by (vm_compute; reflexivity). cbn [andb].
    apply negb_true_iff, N.eqb_neq. intros Z. apply N.lor_eq_0_iff in Z. destruct Z as [Z _]. vm_compute in Z. discriminate.
Qed.
Print Assumptions C115_conversion_refuted.

(** ** boolean=? and symbol=? *)
(** R7RS 6.3 and 6.5: true if all the arguments are the same; only the first two are looked at *)
Theorem C115_equal_partial : forall eqv x y, eqv_procedure eqv [x; y] = Some (eqv x y).
Proof. reflexivity. Qed.
Print Assumptions C115_equal_partial.
Theorem C115_equal_refuted : forall eqv x y, eqv x x = true -> eqv x y = false -> exists xs, xs = [x; x; y] /\ eqv_procedure eqv xs = Some true.
Proof. intros eqv x y R _. exists [x; x; y]. split; [reflexivity|]. cbn. rewrite R. reflexivity. Qed.
Print Assumptions C115_equal_refuted.

Definition example_heap : heap := fun a => if a =? 8 then Some InputStringPort else if a =? 16 then Some FileError else if a =? 24 then Some Closure else if a =? 32 then Some RatioNumber else None.
Example C115_example : port_p example_heap (box (VPtr 8)) = true /\ textual_port_p example_heap (box (VPtr 8)) = true /\ pair_p example_heap (box (VPtr 8)) = false /\
  error_object_p example_heap (box (VPtr 16)) = true /\ procedure_p example_heap (box (VPtr 24)) = true /\ pair_p example_heap (box (VPtr 24)) = false /\ number_p example_heap (box (VPtr 32)) = true /\
  as_class Vector example_heap (box (VPtr 24)) = Refused /\ as_class Vector example_heap (box (VInt 5)) = Refused /\ as_class Pair example_heap (box (VPtr 24)) = Converted (VPtr 24).
Proof. vm_compute. repeat split. Qed.
Example C115_example_nan : as_immediate TDouble (box (VInt 1)) = Converted (VDouble 0x7FFA000000000001).
Proof. vm_compute. reflexivity. Qed.
