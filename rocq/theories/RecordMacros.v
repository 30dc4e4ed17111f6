(** What the definitions that define-record-type (library/srfi-9.ss:129-142) expands to compute, with the
    procedures of Records.v; and what R7RS 5.5 says that define-record-type defines. *)
From Coq Require Import String List Bool Arith.
From Verif Require Import SyntaxRules Macros MacrosSpec.
From Verif Require Records.
Import ListNotations.
Local Open Scope nat_scope.

(** Values of variables: records and types, and the procedures of srfi-9.ss:79-119 *)
Inductive thing :=
| Value (v : Records.value)
| Constructor (k : Records.constructor)
| Predicate (type : Records.value)
| Accessor (type : Records.value) (index : nat)
| Modifier (type : Records.value) (index : nat).
Definition vars := nat -> option thing.
Definition define (g : vars) (x : nat) (v : thing) : vars := fun y => if y =? x then Some v else g y.

(** ** The definitions of an expansion *)
(** (quote d) *)
Inductive quoted (d : datum) : datum -> Prop := Quoted h : is "quote" h -> quoted d (dlist [Id h; d]).
Definition with_store {A} (h : Records.store) (f : A -> thing) (o : option A) : option (thing * Records.store) := option_map (fun x => (f x, h)) o.
(** calls of the procedures; None: an error *)
Inductive computes (g : vars) (h : Records.store) : datum -> option (thing * Records.store) -> Prop :=
| C_type f n tags q1 q2 : is "make-record-type" f -> quoted (Id n) q1 -> quoted (dlist (map Id tags)) q2 ->
    computes g h (dlist [Id f; q1; q2]) (option_map (fun '(h', t) => (Value t, h')) (Records.make_record_type h n tags))
| C_constructor f x t tags q : is "record-constructor" f -> g x = Some (Value t) -> quoted (dlist (map Id tags)) q ->
    computes g h (dlist [Id f; Id x; q]) (with_store h Constructor (Records.record_constructor h t tags))
| C_predicate f x t : is "record-predicate" f -> g x = Some (Value t) -> computes g h (dlist [Id f; Id x]) (Some (Predicate t, h))
| C_accessor f x t tag q : is "record-accessor" f -> g x = Some (Value t) -> quoted (Id tag) q ->
    computes g h (dlist [Id f; Id x; q]) (with_store h (Accessor t) (Records.field_index h t tag))
| C_modifier f x t tag q : is "record-modifier" f -> g x = Some (Value t) -> quoted (Id tag) q ->
    computes g h (dlist [Id f; Id x; q]) (with_store h (Modifier t) (Records.field_index h t tag)).
(** definitions, one after the other; u: the number of the next macro use; an error ends the program *)
Inductive runs : nat -> vars -> Records.store -> datum -> option (vars * Records.store) -> Prop :=
| R_define u g h f x e v h' : is "define" f -> computes g h e (Some (v, h')) -> runs u g h (dlist [Id f; Id x; e]) (Some (define g x v, h'))
| R_error u g h f x e : is "define" f -> computes g h e None -> runs u g h (dlist [Id f; Id x; e]) None
| R_begin u g h f ds o : is "begin" f -> runs_all u g h ds o -> runs u g h (Pair (Id f) (dlist ds)) o
| R_macro u g h f args d o : is "define-record-field" f -> expands define_record_field_text u (Pair (Id f) args) d ->
    runs (S u) g h d o -> runs u g h (Pair (Id f) args) o
with runs_all : nat -> vars -> Records.store -> list datum -> option (vars * Records.store) -> Prop :=
| RA_nil u g h : runs_all u g h [] (Some (g, h))
| RA_error u g h d ds : runs u g h d None -> runs_all u g h (d :: ds) None
| RA_cons u g h d ds g' h' o : runs u g h d (Some (g', h')) -> runs_all u g' h' ds o -> runs_all u g h (d :: ds) o.

(** ** Specification *)
Record field := Field { tag : nat; accessor : nat; modifier : option nat }.
Definition more (f : field) : datum := match modifier f with Some m => dlist [Id m] | None => Nil end.
(** (tag accessor) or (tag accessor modifier) *)
Definition field_form (f : field) : datum := Pair (Id (tag f)) (Pair (Id (accessor f)) (more f)).
(** (define-record-type type (constructor tag ...) predicate field ...), without the keyword *)
Definition record_form (type constructor : nat) (ctags : list nat) (predicate : nat) (fields : list field) : datum :=
  Pair (Id type) (Pair (Pair (Id constructor) (dlist (map Id ctags))) (Pair (Id predicate) (dlist (map field_form fields)))).
Definition field_names (f : field) : list nat := accessor f :: match modifier f with Some m => [m] | None => [] end.
Definition defined_names (type constructor predicate : nat) (fields : list field) : list nat :=
  type :: constructor :: predicate :: concat (map field_names fields).
(** R7RS 5.5: what is defined, and nothing else changes *)
Definition record_type_defined (type constructor : nat) (ctags : list nat) (predicate : nat) (fields : list field)
    (g : vars) (h : Records.store) (g' : vars) (h' : Records.store) : Prop :=
  exists t k, Records.make_record_type h type (map tag fields) = Some (h', t) /\ g' type = Some (Value t) /\
    Records.record_constructor h' t ctags = Some k /\ g' constructor = Some (Constructor k) /\ g' predicate = Some (Predicate t) /\
    (forall f, In f fields -> exists i, Records.field_index h' t (tag f) = Some i /\ g' (accessor f) = Some (Accessor t i) /\
       forall m, modifier f = Some m -> g' m = Some (Modifier t i)) /\
    forall x, ~ In x (defined_names type constructor predicate fields) -> g' x = g x.
