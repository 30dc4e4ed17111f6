(** Property theorems about parameters (C41): make-parameter and dynamic-bind, to which
    parameterize expands, of library/srfi-39.ss, on their compiled code. *)
From Coq Require Import String ZArith List Bool Lia.
From Verif Require Import Machine Generator Evaluate LibraryCode Reach Symbolic ContinuationProofs WindSpec TransferProofs TraceProgram ProgramText MapProofs ParameterProofs PropertiesControl.
Import ListNotations.

(** ** Specification *)
(** A binding: the place of its cell, its parameter, its value. The innermost binding is
    the first of the list. *)
Definition binding : Type := nat * val * val.
Inductive innermost (q : nat) : list binding -> nat -> val -> Prop :=
| In_here p v B : innermost q ((p, VPtr q, v) :: B) p v
| In_later p k v B p' v' : k <> VPtr q -> innermost q B p' v' -> innermost q ((p, k, v) :: B) p' v'.
Definition unbound (q : nat) (B : list binding) : Prop := forall p k v, In (p, k, v) B -> k <> VPtr q.
(** What a call of the parameter q returns, if u is its global value *)
Inductive value_of (q : nat) (u : val) (B : list binding) : val -> Prop :=
| Va_bound p v : innermost q B p v -> value_of q u B v
| Va_global : unbound q B -> value_of q u B u.

Lemma find_innermost q B : (exists p v, find_cell (VPtr q) B = Some (p, v) /\ innermost q B p v) \/ (find_cell (VPtr q) B = None /\ unbound q B).
Proof.
  induction B as [|[[p k] v] B IH]; cbn [find_cell]; [right; split; [reflexivity|intros ? ? ? []]|].
  destruct (val_eqb k (VPtr q)) eqn:E.
  - left. exists p, v. split; [reflexivity|]. destruct k; try discriminate E. cbn in E. apply Nat.eqb_eq in E. subst. constructor.
  - assert (N : k <> VPtr q) by (intros ->; cbn in E; rewrite Nat.eqb_refl in E; discriminate E).
    destruct IH as [(p' & v' & F & I)|[F U]]; [left; exists p', v'; split; [exact F|constructor; assumption]|right; split; [exact F|]].
    intros p' k' v' [H|H]; [congruence|eapply U, H].
Qed.
Lemma innermost_find q B p v : innermost q B p v -> find_cell (VPtr q) B = Some (p, v).
Proof.
  induction 1 as [p v B|p k v B p' v' N H IH]; cbn [find_cell].
  - cbn [val_eqb]. rewrite Nat.eqb_refl. reflexivity.
  - destruct (val_eqb k (VPtr q)) eqn:E; [|exact IH]. destruct k; try discriminate E. cbn in E. apply Nat.eqb_eq in E. congruence.
Qed.
Lemma unbound_find q B : unbound q B -> find_cell (VPtr q) B = None.
Proof. intros U. destruct (find_innermost q B) as [(p & v & _ & I)|[F _]]; [|exact F]. exfalso. induction I; [eapply U; [left; reflexivity|reflexivity]|apply IHI; intros p1 k1 v1 H1; eapply U; right; exact H1]. Qed.
Lemma innermost_at P vs B q p v : cells_at P vs B -> innermost q B p v -> P p (OPair (VPtr q) v).
Proof. intros C. revert p v. induction C; intros p' v' H'; inversion H'; subst; [assumption|auto]. Qed.

(** ** Parameters *)
(** make-parameter with a converter calls it once, with the initial value; the result is the
    global value of a new parameter *)
Theorem C41_make : forall proc ghost own (Inv : ghost -> heap -> list gval -> list val -> frame -> Prop), program proc own Inv ->
  forall aim l a P xs init conv (K : val -> ghost -> list val -> frame -> Prop), lib P -> lst P xs [init; conv] ->
  (forall P1 w, sub P P1 -> lst P1 w [init] -> returns proc ghost Inv aim conv w l a P1 (fun u l' a' P' =>
    forall q D P2, sub P' P2 -> (forall r o, P' r o -> r <> q) -> parameter P2 q conv D -> P2 D (OPair (VPtr q) u) -> K (VPtr q) l' a' P2)) ->
  returns proc ghost Inv aim (global "make-parameter") xs l a P K.
Proof. intros proc ghost own Inv (Hp & Ok) aim l a P xs init conv K L X H. change (global "make-parameter") with (VPtr 133). eapply (make_parameter_conv proc Hp _ _ _ Ok); eassumption. Qed.
Print Assumptions C41_make.
(** make-parameter without a converter: the initial value is the global value, and the
    converter returns its argument *)
Theorem C41_make_plain : forall proc ghost own (Inv : ghost -> heap -> list gval -> list val -> frame -> Prop), program proc own Inv ->
  forall aim l a P xs init (K : val -> ghost -> list val -> frame -> Prop), lib P -> lst P xs [init] ->
  (forall conv q D P2, sub P P2 -> (forall r o, P r o -> r <> q) -> parameter P2 q conv D -> P2 D (OPair (VPtr q) init) ->
    (forall l1 a1 P3 w u, sub P2 P3 -> lst P3 w [u] -> returns proc ghost Inv aim conv w l1 a1 P3 (fun v l' a' _ => v = u /\ l' = l1 /\ a' = a1)) -> K (VPtr q) l a P2) ->
  returns proc ghost Inv aim (global "make-parameter") xs l a P K.
Proof. intros proc ghost own Inv (Hp & Ok) aim l a P xs init K L X H. change (global "make-parameter") with (VPtr 133). eapply (make_parameter_plain proc Hp _ _ _ Ok); eassumption. Qed.
Print Assumptions C41_make_plain.

(** (q) returns the value of the innermost binding of q, or its global value; nothing else
    happens *)
Theorem C41_get : forall proc ghost own (Inv : ghost -> heap -> list gval -> list val -> frame -> Prop), program proc own Inv ->
  forall aim l a P q conv D X vs B y u v, lib P -> parameter P q conv D -> P D (OPair y u) ->
  nth_error a 1 = Some X -> lst P X vs -> cells_at P vs B -> value_of q u B v ->
  returns proc ghost Inv aim (VPtr q) VNil l a P (fun w l' a' _ => w = v /\ l' = l /\ a' = a).
Proof.
  intros proc ghost own Inv (Hp & Ok) aim l a P q conv D X vs B y u v L Q HD A V C W. destruct W as [p v In|Un].
  - eapply (parameter_get proc Hp _ _ _ Ok); try eassumption. unfold cell_of_parameter. rewrite (innermost_find _ _ _ _ In). eapply innermost_at; eassumption.
  - eapply (parameter_get proc Hp _ _ _ Ok); try eassumption. unfold cell_of_parameter. rewrite (unbound_find _ _ Un). eassumption.
Qed.
Print Assumptions C41_get.
Theorem C41_value : forall q u B, exists v, value_of q u B v /\ forall v', value_of q u B v' -> v' = v.
Proof.
  intros q u B. destruct (find_innermost q B) as [(p & v & F & I)|[F U]].
  - exists v. split; [econstructor; exact I|]. intros v' [p' v'' I'|U']; [apply innermost_find in I'; congruence|apply unbound_find in U'; congruence].
  - exists u. split; [constructor; exact U|]. intros v' [p' v'' I'|U']; [apply innermost_find in I'; congruence|reflexivity].
Qed.
Print Assumptions C41_value.
(** (q v) converts v and puts it into the cell p of the innermost binding of q, and changes
    no other object *)
Theorem C41_set : forall proc ghost own (Inv : ghost -> heap -> list gval -> list val -> frame -> Prop), program proc own Inv ->
  forall aim l h g a P q conv D X vs B xs v p s e c d, Inv l h g a P -> lib P -> parameter P q conv D ->
  nth_error a 1 = Some X -> lst P X vs -> cells_at P vs B -> lst P xs [v] ->
  (exists w, innermost q B p w) \/ (unbound q B /\ p = D) ->
  (forall P1 w, sub P P1 -> lst P1 w [v] -> returns proc ghost Inv aim conv w l a P1 (fun u l' a' P' =>
     exists y z, P' p (OPair y z) /\
     forall h' g' P2, Inv l' h' g' a' P2 -> (forall r o, P' r o -> r <> p -> P2 r o) -> P2 p (OPair y u) -> reaches proc (St (u :: s) e c d h' g' a') aim)) ->
  calls proc (VPtr q) xs s e c d h g a aim.
Proof.
  intros proc ghost own Inv (Hp & Ok) aim l h g a P q conv D X vs B xs v p s e c d I L Pa A V C A1 W H.
  assert (E : cell_of_parameter q D B = p).
  { unfold cell_of_parameter. destruct W as [(w & In)|[Un ->]]; [rewrite (innermost_find _ _ _ _ In)|rewrite (unbound_find _ _ Un)]; reflexivity. }
  subst p. eapply (parameter_set proc Hp _ _ _ Ok); eassumption.
Qed.
Print Assumptions C41_set.

(** ** parameterize *)
(** (dynamic-bind parameters values body): the converter of each parameter is called once,
    with its value, in the order of the bindings; then body is called with the bindings of
    new cells with the converted values in front of those that were current, and in a new
    extent; when body returns, the bindings and the extents are again as they were before,
    and the value is that of body. The thunks of the extent install the inner and the outer
    bindings. *)
Theorem C41_parameterize : forall proc ghost own (Inv : ghost -> heap -> list gval -> list val -> frame -> Prop), program proc own Inv -> own 0 -> own 1 ->
  forall aim l a P xs pv vv body qs cs (R : val -> ghost -> list val -> frame -> Prop), lib P -> lst P xs [pv; vv; body] ->
  lst P pv (map VPtr qs) -> lst P vv (map snd cs) -> Forall2 (fun q c => exists D, parameter P q (fst c) D) qs cs ->
  conversions proc ghost Inv aim cs l a P (fun ys l1 a1 P1 => exists X1 vs1 B1 E F, nth_error a1 1 = Some X1 /\ lst P1 X1 vs1 /\ cells_at P1 vs1 B1 /\ nth_error a1 0 = Some E /\ chain P1 E F /\
    forall ps b z p w P2, sub P1 P2 -> length ps = length qs -> length ys = length qs ->
      lst P2 w (map VPtr ps ++ vs1) -> cells_at P2 (map VPtr ps ++ vs1) (made ps qs ys ++ B1) ->
      chain P2 (VPtr p) (Ext p b z :: F) -> installs proc ghost Inv aim 1 P2 b (map VPtr ps ++ vs1) -> installs proc ghost Inv aim 1 P2 z vs1 ->
      returns proc ghost Inv aim body VNil l1 (update (update a1 1 w) 0 (VPtr p)) P2 (fun v l2 a2 P3 => nth_error a2 0 = Some (VPtr p) /\
        forall P4, sub P3 P4 -> R v l2 (update (update a2 0 E) 1 X1) P4)) ->
  returns proc ghost Inv aim (global "dynamic-bind") xs l a P R.
Proof.
  intros proc ghost own Inv (Hp & Ok) O0 O1 aim l a P xs pv vv body qs cs R L X V W F H. change (global "dynamic-bind") with (VPtr 134).
  eapply (dynamic_bind_runs proc Hp _ _ _ Ok aim O0 O1); try eassumption. eapply conversions_mono; [|exact H]. cbn beta.
  intros ys l1 a1 P1 U (X1 & vs1 & B1 & E & Fe & A1 & V1 & C1 & A0 & Ch & G). exists X1, vs1, B1, E, Fe. repeat (split; [assumption|]).
  intros ps b z p w P2 U2 N1 N2 C2 W2. apply G; try assumption. apply cells_app; [exact C2|eapply cells_up; eassumption].
Qed.
Print Assumptions C41_parameterize.
(** The bindings of the body: the parameters that are bound have the converted values, the
    others have the values that they had *)
Theorem C41_body : forall ps qs ys B u q, length ps = length qs -> length ys = length qs ->
  (forall i v, nth_error qs i = Some q -> (forall j, j < i -> nth_error qs j <> Some q) -> nth_error ys i = Some v -> value_of q u (made ps qs ys ++ B) v) /\
  (forall v, ~ In q qs -> value_of q u B v -> value_of q u (made ps qs ys ++ B) v).
Proof.
  intros ps qs ys B u q. revert ps ys. induction qs as [|k qs IH]; intros [|p ps] [|y ys] N M; cbn in N, M; try lia.
  { split; [intros [|i] v H; discriminate H|intros v _ H; exact H]. }
  specialize (IH ps ys ltac:(lia) ltac:(lia)). destruct IH as [IH1 IH2]. cbn [made app].
  assert (Later : forall v, k <> q -> value_of q u (made ps qs ys ++ B) v -> value_of q u ((p, VPtr k, y) :: made ps qs ys ++ B) v).
  { intros v Ne [p' v' I|U]; [eapply Va_bound; apply In_later; [congruence|exact I]|apply Va_global]. intros p' k' v' [H|H]; [congruence|eapply U, H]. }
  split.
  - intros [|i] v H Fst Y; cbn in H, Y.
    + injection H as ->. injection Y as ->. eapply Va_bound. apply In_here.
    + apply Later; [intros ->; apply (Fst 0); [lia|reflexivity]|]. eapply IH1; [exact H| |exact Y]. intros j Hj. apply (Fst (S j)). lia.
  - intros v Ni H. apply Later; [intros ->; apply Ni; left; reflexivity|]. apply IH2; [intros Hi; apply Ni; right; exact Hi|exact H].
Qed.
Print Assumptions C41_body.

(** ** Exit and entry by a continuation *)
(** cs x are the cells that the extent x of a parameterize made, none for an extent of
    dynamic-wind whose thunks leave the bindings alone. The bindings that belong to a list
    of extents are those of the extents, the innermost first. *)
Definition bindings_of (cs : extent -> list val) (F : list extent) : list val := flat_map cs F.
(** The thunks of the extents make the bindings of their extent from those around it, and
    the other way round *)
Definition bracketed proc {ghost} (Inv : ghost -> heap -> list gval -> list val -> frame -> Prop) (aim : state -> Prop) (cs : extent -> list val) (P : frame) (F : list extent) : Prop :=
  forall F0 x F1, F = F0 ++ x :: F1 ->
  (forall l a P' X, sub P P' -> current 1 (bindings_of cs F1) a P' ->
    returns proc ghost Inv aim (before x) VNil l (update a 0 X) P' (fun _ l' a' P2 => current 1 (bindings_of cs (x :: F1)) a' P2)) /\
  (forall l a P' X, sub P P' -> current 1 (bindings_of cs (x :: F1)) a P' ->
    returns proc ghost Inv aim (after x) VNil l (update a 0 X) P' (fun _ l' a' P2 => current 1 (bindings_of cs F1) a' P2)).
(** The extents of parameterize are such extents *)
Theorem C41_bracketed : forall proc ghost (Inv : ghost -> heap -> list gval -> list val -> frame -> Prop) aim cs P F x,
  bracketed proc Inv aim cs P F -> installs proc ghost Inv aim 1 P (before x) (cs x ++ bindings_of cs F) -> installs proc ghost Inv aim 1 P (after x) (bindings_of cs F) ->
  bracketed proc Inv aim cs P (x :: F).
Proof.
  intros proc ghost Inv aim cs P F x H B Z [|y F0] x' F1 E; cbn [app] in E; injection E as -> ->; [|eapply H; reflexivity].
  assert (Put : forall (a : list val) X v w, nth_error a 1 = Some v -> nth_error (update (update a 0 X) 1 w) 1 = Some w).
  { intros a X v w A. eapply update_at. rewrite register_ne by lia. exact A. }
  split; intros l a P' X U (v & A & V); (eapply returns_mono; [|first [apply (B l _ P' U)|apply (Z l _ P' U)]]); cbn beta; intros v' l' a' P2 U2 (-> & w & -> & W); exists w; (split; [eapply Put, A|exact W]).
Qed.
Print Assumptions C41_bracketed.
(** So are extents whose thunks install another register, as those of with-exception-handler *)
Theorem C41_bracketed_other : forall proc ghost (Inv : ghost -> heap -> list gval -> list val -> frame -> Prop) aim cs P F x r vs ws,
  bracketed proc Inv aim cs P F -> cs x = [] -> r <> 1 -> installs proc ghost Inv aim r P (before x) vs -> installs proc ghost Inv aim r P (after x) ws ->
  bracketed proc Inv aim cs P (x :: F).
Proof.
  intros proc ghost Inv aim cs P F x r vs ws H Hx Nr B Z [|y F0] x' F1 E; cbn [app] in E; injection E as -> ->; [|eapply H; reflexivity].
  split; intros l a P' X U (v & A & V); (eapply returns_mono; [|first [apply (B l _ P' U)|apply (Z l _ P' U)]]); cbn beta; intros v' l' a' P2 U2 (-> & w & -> & W); exists v;
    unfold bindings_of in *; cbn [flat_map] in *; rewrite Hx in *; cbn [app] in *; (split; [rewrite !register_ne by lia; exact A|eapply lst_up; eassumption]).
Qed.
Print Assumptions C41_bracketed_other.
(** A continuation made in the extents T is called in the extents F, with the bindings of F:
    the program goes on with the bindings of T. This holds although more thunks run than
    should (C40_order_refuted). *)
Theorem C41_transfer : forall proc ghost own (Inv : ghost -> heap -> list gval -> list val -> frame -> Prop), program proc own Inv ->
  forall k P T s e c d, resumes proc Inv k P T s e c d ->
  forall cs l h g a P' F X Y xs v s1 e1 c1 d1 aim,
  Inv l h g a P' -> sub P P' -> lst P' xs [v] -> nth_error a 0 = Some X -> chain P' X F -> chain P' Y T ->
  bracketed proc Inv aim cs P' F -> bracketed proc Inv aim cs P' T -> current 1 (bindings_of cs F) a P' ->
  (forall l' h' g' a' P2, Inv l' h' g' a' P2 -> current 1 (bindings_of cs T) a' P2 -> reaches proc (St (v :: s) e c d h' g' a') aim) ->
  calls proc k xs s1 e1 c1 d1 h g a aim.
Proof.
  intros proc ghost own Inv (_ & Ok) k P T s e c d H cs l h g a P' F X Y xs v s1 e1 c1 d1 aim I U A N CF CT BF BT C K.
  assert (Un : forall q o o', P' q o -> P' q o' -> o = o').
  { intros q o o' H1 H2. pose proof (inv_has _ _ Ok _ _ _ _ _ _ _ I H1). pose proof (inv_has _ _ Ok _ _ _ _ _ _ _ I H2). congruence. }
  eapply H; [exact I|exact U|exact A|exact N|exact CF|].
  eapply runs_mono; [|apply (windup_keeps proc ghost Inv aim 1 (bindings_of cs) F T l a P' (chain_consistent P' X Y F T Un CF CT) BF BT C)].
  intros l' a' P2 _ (w & A' & W) h' g' P3 I3 U3. eapply K; [exact I3|]. exists w. split; [|eapply lst_up; eassumption]. rewrite register_ne by lia. exact A'.
Qed.
Print Assumptions C41_transfer.

(** ** The theorems apply: the program of C40_program; and the same with the program text *)
Open Scope string_scope.
Open Scope list_scope.
(** (parameterize ((p 'b)) ...) expands to (dynamic-bind (list p) (list 'b) (lambda () ...)) *)
Example C41_ex_nested : notes "(define p (make-parameter 'a))
  (define q (make-parameter 'b (lambda (x) (note 'converted) x)))
  (note (dynamic-bind (list p q) (list 'c 'd)
    (lambda () (note (p)) (note (q)) (dynamic-bind (list p) (list 'e) (lambda () (note (p)) (note (q)))) (note (p)) 'value)))
  (note (p)) (note (q))" = Some (map text_of ["converted"; "converted"; "c"; "d"; "e"; "d"; "c"; "value"; "a"; "b"]).
Proof. vm_compute. reflexivity. Qed.
(** An exit, and a second entry, by a continuation *)
Example C41_ex_escape : notes "(define p (make-parameter 'a))
  (define again #f)
  (define first #t)
  (call-with-current-continuation (lambda (exit)
    (dynamic-bind (list p) (list 'b) (lambda ()
      (call-with-current-continuation (lambda (k) (set! again k)))
      (note (p))
      (exit 'x)))))
  (note (p))
  (if first (begin (set! first #f) (again 'x)))
  (note (p))" = Some (map text_of ["b"; "a"; "b"; "a"]).
Proof. vm_compute. reflexivity. Qed.
(** An assignment changes the innermost binding only *)
Example C41_ex_set : notes "(define p (make-parameter 'a))
  (dynamic-bind (list p) (list 'b) (lambda () (p 'c) (note (p))))
  (note (p)) (p 'd) (note (p))" = Some (map text_of ["c"; "a"; "d"]).
Proof. vm_compute. reflexivity. Qed.
Example C41_ex_value : value_of 7 (VImm 1) [(20, VPtr 8, VImm 2); (21, VPtr 7, VImm 3); (22, VPtr 7, VImm 4)] (VImm 3) /\ value_of 9 (VImm 1) [(20, VPtr 8, VImm 2)] (VImm 1).
Proof.
  split; [eapply Va_bound; apply In_later; [discriminate|apply In_here]|]. apply Va_global. intros p k v [H|[]]. congruence.
Qed.
