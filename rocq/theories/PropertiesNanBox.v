(** Property C01: a value stored in an object cell is read back unchanged. *)
From Coq Require Import NArith ZArith.
From Verif Require Import NanBox.
Open Scope N_scope.

(** Reading the cell with the type it reports returns what was stored
    ([stored] only replaces NaN payloads by the canonical NaN). *)
Theorem C01_store_then_load : forall v, representable v ->
  type_of (box v) = tag_of v /\ as_ (type_of (box v)) (box v) = stored v /\ box v < 2^64.
Proof. exact store_then_load. Qed.
Print Assumptions C01_store_then_load.

(** eq? on cells is equality of type and value. *)
Theorem C01_eq_iff_same_value : forall v w, representable v -> representable w ->
  (cell_eq (box v) (box w) = true <-> stored v = stored w).
Proof. exact eq_iff_same_value. Qed.
Print Assumptions C01_eq_iff_same_value.

(** Only cells that hold a heap pointer yield one, and it is the pointer stored. *)
Theorem C01_get_is_pointer : forall v, representable v ->
  get (box v) = match v with VPtr a => Some a | _ => None end /\
  truthy (box v) = match v with VPtr _ => true | _ => false end.
Proof. exact get_is_pointer. Qed.
Print Assumptions C01_get_is_pointer.

Example C01_ex_values :
  representable (VInt (-2147483648)) /\ representable (VPtr 0x7FFFFFFFFFF8) /\
  representable (VDouble 0xFFF8000000000001) /\ representable (VChar 0x10FFFF) /\
  stored (VDouble 0xFFF8000000000001) = VDouble 0x7FF8000000000000 /\
  stored (VDouble 0xFFF0000000000000) = VDouble 0xFFF0000000000000.
Proof. vm_compute. intuition (discriminate || reflexivity). Qed.
Example C01_ex_distinct : cell_eq (box (VInt 1)) (box (VBool true)) = false.
Proof. reflexivity. Qed.
