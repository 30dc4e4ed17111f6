(** * Properties of the expander: lexical scope, hygiene, references of macros, quoted data.
    The model is Expander.v, the specification ExpanderSpec.v, the proofs are in ExpanderProofs.v. *)
From Coq Require Import List Bool Arith Lia.
From Verif Require Import Expander ExpanderSpec ExpanderProofs.
Import ListNotations.

(** What the properties are about: environments [second] with cells that hold [content], macros that are
    er-macro-transformers with the procedures [macro], which put nothing into their results but
    parts of their forms, renamed symbols and constants; the core environment binds lambda and set!; x is
    a form as it is read, without syntactic closures. *)
Definition setting (second : nat -> list (nat * nat)) (content : nat -> binding) (macro : nat -> form -> option template) : Prop :=
  (forall t x tp, macro t x = Some tp -> forall ok, closures ok x -> template_parts ok tp) /\
  (exists c, bound k_lambda (second core) = Some c /\ content c = Syntax k_lambda) /\
  (exists c, bound k_set (second core) = Some c /\ content c = Syntax k_set).
Definition as_read (x : form) : Prop := closures (fun _ => False) x.
(** The result for all large amounts of fuel *)
Definition compiles_to (second : nat -> list (nat * nat)) (content : nat -> binding) (macro : nat -> form -> option template) (spec_value : form -> option nat)
  (g : nat) (x : form) (n : nat) (c : code) : Prop :=
  exists k, forall fuel, k <= fuel -> compile second content (fun t => er_transform (macro t)) spec_value fuel g x n = Ok c.

(** ** C58: lexical scope and hygiene.
    The full statement is [C58_statement false]; it is refuted below.  [C58_statement true] is about the
    programs that the premises with [careful] of ExpanderSpec.v leave. *)
Definition C58_statement (careful : bool) : Prop :=
  forall second content macro spec_value g x c, setting second content macro -> as_read x ->
  program_means second content macro g careful x c ->
  forall n, compiles_to second content macro spec_value g x n c.
Theorem C58_scope_partial : C58_statement true.
Proof.
  intros second content macro spec_value g x c (P & C & Cs) R M n. apply (program_correct second content macro spec_value g C Cs P x c R M n).
Qed.
Print Assumptions C58_scope_partial.

(** ** An environment: 0 is the core, 1 is the environment of the library macros, 2 the one of the program *)
Definition x_ := 20.  Definition y_ := 21.  Definition and_ := 22.  Definition or_ := 23.  Definition let_ := 24.
Definition result_ := 25.  Definition m_ := 26.  Definition list_ := 27.  Definition when_ := 28.  Definition loop_ := 29.
Definition q_ := 30.  Definition z_ := 31.  Definition u_ := 32.  Definition d_ := 33.
Definition in_core : list (nat * nat) := map (fun k => (k, k)) (seq 0 keywords).
Definition in_library : list (nat * nat) := map (fun k => (k, k)) [and_; or_; let_; when_; m_; q_; u_; d_; list_] ++ in_core.
Definition ex_second (g : nat) : list (nat * nat) :=
  match g with 0 => in_core | 1 => in_library | _ => (x_, x_) :: in_library end.
Definition ex_content (c : nat) : binding :=
  if c <? keywords then Syntax c
  else if c =? and_ then Macro 0 1 else if c =? or_ then Macro 1 1 else if c =? let_ then Macro 2 1 else if c =? when_ then Macro 3 1
  else if c =? m_ then Macro 4 1 else if c =? q_ then Macro 5 1 else if c =? u_ then Macro 6 1 else if c =? d_ then Macro 7 1 else Value.
Fixpoint cadrs (x : form) : form := match x with Pair a d => Pair (car (cdr a)) (cadrs d) | _ => Nil end.
Definition ex_macro (t : nat) (x : form) : option template :=
  match t with
  | 0 => (* and, library/r4rs.ss:117-127 *)
    match cdr x with
    | Nil => Some (TAtom 1)
    | Pair a Nil => Some (TForm a)
    | Pair a d => Some (tlist [TName k_if; TForm a; TPair (TName and_) (TForm d); TAtom 0])
    | _ => None
    end
  | 1 => (* or, library/r4rs.ss:129-142 *)
    match cdr x with
    | Nil => Some (TAtom 0)
    | Pair a Nil => Some (TForm a)
    | Pair a d => Some (tlist [tlist [TName k_lambda; tlist [TName result_]; tlist [TName k_if; TName result_; TName result_; TPair (TName or_) (TForm d)]]; TForm a])
    | _ => None
    end
  | 2 => (* let, library/r4rs.ss:187-195 *)
    match cdr x with
    | Pair b rest =>
      if is_id b
      then Some (tlist [TName k_letrec; tlist [tlist [TForm b; TPair (TName k_lambda) (TPair (TForm (map_car (car rest))) (TForm (cdr rest)))]];
                        TPair (TForm b) (TForm (cadrs (car rest)))])
      else Some (TPair (TPair (TName k_lambda) (TPair (TForm (map_car b)) (TForm rest))) (TForm (cadrs b)))
    | _ => None
    end
  | 3 => (* when, library/r7rs.ss:102-106 *)
    match cdr x with
    | Pair a d => Some (tlist [TName k_if; TForm a; TPair (TName k_begin) (TForm d)])
    | _ => None
    end
  | 4 => Some (TName x_)                                              (* (m) stands for x *)
  | 5 => Some (tlist [TName k_quote; tlist [TName x_; TName y_]])     (* (q) stands for '(x y) *)
  | 6 => Some (TName z_)                                              (* (u) stands for z, which is not defined *)
  | 7 => Some (tlist [TName k_define; TName x_; TAtom 5])             (* (d) stands for (define x 5) *)
  | _ => None
  end.
Definition ex_spec (x : form) : option nat := match x with Atom n => Some n | _ => None end.
Lemma closures_car ok x : closures ok x -> closures ok (car x).
Proof. destruct x; cbn; tauto. Qed.
Lemma closures_cdr ok x : closures ok x -> closures ok (cdr x).
Proof. destruct x; cbn; tauto. Qed.
Lemma closures_map_car ok x : closures ok x -> closures ok (map_car x).
Proof. induction x; cbn; auto. intros [Ha Hd]. split; [apply closures_car, Ha|apply IHx2, Hd]. Qed.
Lemma closures_cadrs ok x : closures ok x -> closures ok (cadrs x).
Proof. induction x; cbn; auto. intros [Ha Hd]. split; [apply closures_car, closures_cdr, Ha|apply IHx2, Hd]. Qed.
Lemma ex_setting : setting ex_second ex_content ex_macro.
Proof.
  split; [|split; [exists k_lambda|exists k_set]; split; reflexivity]. intros t x tp M ok C. pose proof (closures_cdr ok x C) as D.
  destruct t as [|[|[|[|[|[|[|[|t]]]]]]]]; cbn [ex_macro] in M; try discriminate M; try (injection M as <-; cbn; tauto);
    destruct (cdr x) as [| | |a d| |]; try discriminate M; try (injection M as <-; cbn; tauto); destruct D as [Da Dd].
  - destruct d; injection M as <-; cbn; cbn in Dd; tauto.
  - destruct d; injection M as <-; cbn; cbn in Dd; tauto.
  - destruct (is_id a); injection M as <-; cbn; repeat split; auto using closures_car, closures_cdr, closures_map_car, closures_cadrs.
  - injection M as <-. cbn. tauto.
Qed.
Notation ex_means := (program_means ex_second ex_content ex_macro 2).
Notation ex_compiles := (compiles_to ex_second ex_content ex_macro ex_spec 2).
Definition lambda (vs : list nat) (body : list form) : form := Pair (Sym k_lambda) (Pair (flist (map Sym vs)) (flist body)).
Ltac decide_compile := exists 60; intros fuel Le; replace fuel with (60 + (fuel - 60)) by lia; generalize (fuel - 60); clear; intros fuel; vm_compute; reflexivity.
(** Tactics for derivations *)
Ltac numbers := cbv [x_ y_ and_ or_ let_ result_ m_ list_ when_ loop_ q_ z_ u_ d_ k_begin k_callcc k_cond_expand k_current k_define k_define_syntax k_if k_include
  k_include_ci k_install k_lambda k_let_syntax k_letrec k_letrec_syntax k_quote k_quote_syntax k_set].
Ltac known_ids := repeat match goal with
  | H : Forall _ (_ :: _) |- _ => inversion_clear H
  | H : below _ _ |- _ => cbn in H
  | H : _ /\ _ |- _ => destruct H
  end.
Ltac ids := repeat match goal with |- context [?a =? ?b] => destruct (Nat.eqb_spec a b); try (exfalso; lia) end.
Ltac look := unfold syntax, kind, not_macro, careful_variable; cbn [place spot identical is_id lambda flist map formal_names]; numbers; known_ids; ids; vm_compute; try reflexivity.
Ltac formals_fine := split; [cbn; repeat constructor|cbn; numbers; repeat split; ids; reflexivity].
Ltac careful_fine := intros _; cbn; repeat constructor; look; auto; try discriminate.
Ltac written := cbv [stands_for write_out fst snd tlist bound Nat.eqb]; numbers.
Ltac derive :=
  match goal with
  | |- means _ _ _ _ _ _ (Sym _) _ => apply M_variable; [reflexivity|look|unfold denotes; look]
  | |- means _ _ _ _ _ _ (Clo _ _ _ _ _) _ => apply M_variable; [reflexivity|look|unfold denotes; look]
  | |- means _ _ _ _ _ _ (Atom _) _ => apply M_atom
  | |- means _ _ _ _ _ _ Nil _ => apply M_nil
  | |- means _ _ _ _ _ _ (Pair _ _) _ => first
    [ eapply M_call; [intros Hid; first [discriminate Hid|solve [look]]|derive|derive]
    | eapply M_macro; [reflexivity|solve [look]|vm_compute; reflexivity|first [discriminate|intros _; vm_compute; solve [auto]]|intros ? ? ?; written; derive]
    | eapply M_quote; [solve [split; look]|first [discriminate|intros _; vm_compute; solve [tauto]]]
    | eapply M_if; [solve [split; look]|derive]
    | eapply M_begin; [solve [split; look]|derive]
    | eapply M_set; [solve [split; look]|reflexivity|look|unfold denotes; look|derive]
    | eapply M_lambda; [solve [split; look]|formals_fine|first [discriminate|careful_fine]|derive]
    | eapply M_letrec; [solve [split; look]|formals_fine|first [discriminate|careful_fine]|derive|derive] ]
  | |- all_mean _ _ _ _ _ _ Nil _ => apply A_nil
  | |- all_mean _ _ _ _ _ _ (Pair _ _) _ => eapply A_cons; [derive|derive]
  | |- specs_mean _ _ _ _ _ _ Nil _ => apply S_nil
  | |- specs_mean _ _ _ _ _ _ (Pair _ _) _ => eapply S_cons; [derive|derive]
  | |- body_means _ _ _ _ _ _ _ _ => apply B_items; derive
  | |- items_mean _ _ _ _ _ _ Nil _ => apply I_nil
  | |- items_mean _ _ _ _ _ _ (Pair _ _) _ => eapply (I_cons _ _ _ _ _ _ _ _ [_]); [derive|derive]
  | |- item_means _ _ _ _ _ _ (Pair _ _) _ => first
    [ eapply I_macro; [reflexivity|solve [look]|vm_compute; reflexivity|first [discriminate|intros _; vm_compute; solve [auto]]|intros ? ? ?; written; derive]
    | eapply I_begin; [solve [split; look]|derive]
    | apply I_expression; [unfold expression; intros Hid; first [discriminate Hid|solve [look]]|derive] ]
  | |- item_means _ _ _ _ _ _ _ _ => apply I_expression; [exact I|derive]
  | |- _ => idtac
  end.
(** *** An example inside the partial theorem:
    (lambda (result x) (let ((y (or #f result))) (when y (set! x y)) (lambda (if) (and y x)))) *)
Definition ex_program : form :=
  lambda [result_; x_] [flist [Sym let_; flist [flist [Sym y_; flist [Sym or_; Atom 0; Sym result_]]];
                               flist [Sym when_; Sym y_; flist [Sym k_set; Sym x_; Sym y_]];
                               lambda [k_if] [flist [Sym and_; Sym y_; Sym x_]]]].
Definition ex_code : code :=
  CLambda 2 false
    [CCall (CLambda 1 false [CIf [CLocal 0 0; CSeq [CSet (CLocal 1 1) (CLocal 0 0)]]; CLambda 1 false [CIf [CLocal 1 0; CLocal 2 1; CConst (Atom 0)]]])
       [CCall (CLambda 1 false [CIf [CLocal 0 0; CLocal 0 0; CLocal 1 0]]) [CConst (Atom 0)] (CConst Nil)] (CConst Nil)].
Example C58_ex_means : ex_means true ex_program ex_code.
Proof.
  apply P_expression. unfold ex_program, ex_code, lambda. cbn [flist map].
  derive.
Qed.
Example C58_ex : ex_compiles ex_program 0 ex_code.
Proof. apply (C58_scope_partial ex_second ex_content ex_macro ex_spec 2 ex_program ex_code ex_setting); [cbn; tauto|apply C58_ex_means]. Qed.
(** *** One with internal definitions:
    (lambda (x) (define y (or #f x)) (define (z list) (when list (set! y list)) y) (and y z) (z 5)) *)
Definition ex_body : form :=
  lambda [x_] [flist [Sym k_define; Sym y_; flist [Sym or_; Atom 0; Sym x_]];
               flist [Sym k_define; flist [Sym z_; Sym list_]; flist [Sym when_; Sym list_; flist [Sym k_set; Sym y_; Sym list_]]; Sym y_];
               flist [Sym and_; Sym y_; Sym z_]; flist [Sym z_; Atom 5]].
Definition ex_body_code : code :=
  CLambda 1 false
    [CCall (CLambda 2 false
       [CSet (CLocal 0 0) (CCall (CLambda 1 false [CIf [CLocal 0 0; CLocal 0 0; CLocal 2 0]]) [CConst (Atom 0)] (CConst Nil));
        CSet (CLocal 0 1) (CLambda 1 false [CIf [CLocal 0 0; CSeq [CSet (CLocal 1 0) (CLocal 0 0)]]; CLocal 1 0]);
        CIf [CLocal 0 0; CLocal 0 1; CConst (Atom 0)];
        CCall (CLocal 0 1) [CConst (Atom 5)] (CConst Nil)]) [CConst Nil; CConst Nil] (CConst Nil)].
Example C58_ex_body_means : ex_means true ex_body ex_body_code.
Proof.
  apply P_expression. unfold ex_body, ex_body_code, lambda. cbn [flist map]. eapply M_lambda; [split; look|formals_fine|careful_fine|].
  apply (B_definitions _ _ _ _ _ _ (flist [flist [Sym k_define; Sym y_; flist [Sym or_; Atom 0; Sym x_]];
      flist [Sym k_define; flist [Sym z_; Sym list_]; flist [Sym when_; Sym list_; flist [Sym k_set; Sym y_; Sym list_]]; Sym y_]])
    (flist [Sym y_; Sym z_]) (flist [flist [Sym and_; Sym y_; Sym z_]; flist [Sym z_; Atom 5]]) [_; _] [_; _]); [reflexivity| | |formals_fine|careful_fine].
  - cbn [flist]. apply D_variable; [split; look|reflexivity|derive|]. apply (D_procedure _ _ _ _ _ _ _ _ _ (Pair (Sym list_) Nil)); [split; look|reflexivity|formals_fine|careful_fine|derive|apply D_nil].
  - cbn [flist]. derive.
Qed.
Example C58_ex_body : ex_compiles ex_body 0 ex_body_code.
Proof. apply (C58_scope_partial ex_second ex_content ex_macro ex_spec 2 ex_body ex_body_code ex_setting); [cbn; tauto|apply C58_ex_body_means]. Qed.

(** *** What the expander gets wrong *)
Definition wrong (x : form) (c c' : code) : Prop := as_read x /\ ex_means false x c /\ ex_compiles x 0 c' /\ c <> c'.
Lemma compiles_once x n c c' : ex_compiles x n c -> ex_compiles x n c' -> c = c'.
Proof. intros (k & H) (k' & H'). assert (E : Ok c = Ok c') by (rewrite <- (H (k + k') ltac:(lia)); apply H'; lia). congruence. Qed.
Ltac are_wrong := split; [cbn; tauto|]; split; [apply P_expression|split; [decide_compile|discriminate]].
(** An inner variable with the name of an outer one: where (and x) or (or x) stands for x, the outer one is taken.
    (lambda (x) (lambda (x) (and x))) *)
Theorem C58_shadowed_refuted :
  wrong (lambda [x_] [lambda [x_] [flist [Sym and_; Sym x_]]])
        (CLambda 1 false [CLambda 1 false [CLocal 0 0]]) (CLambda 1 false [CLambda 1 false [CLocal 1 0]]).
Proof. are_wrong. unfold lambda. cbn [flist map]. derive. Qed.
Print Assumptions C58_shadowed_refuted.
(** (lambda (x) (lambda (x) (or #f x))) *)
Theorem C58_or_refuted :
  wrong (lambda [x_] [lambda [x_] [flist [Sym or_; Atom 0; Sym x_]]])
        (CLambda 1 false [CLambda 1 false [CCall (CLambda 1 false [CIf [CLocal 0 0; CLocal 0 0; CLocal 1 0]]) [CConst (Atom 0)] (CConst Nil)]])
        (CLambda 1 false [CLambda 1 false [CCall (CLambda 1 false [CIf [CLocal 0 0; CLocal 0 0; CLocal 2 0]]) [CConst (Atom 0)] (CConst Nil)]]).
Proof. are_wrong. unfold lambda. cbn [flist map]. derive. Qed.
Print Assumptions C58_or_refuted.
(** A variable of letrec with the name of a variable around it and of a global variable: the
    body takes the global variable.  (lambda (x) (letrec ((x 5)) x)) *)
Theorem C58_letrec_refuted :
  wrong (lambda [x_] [flist [Sym k_letrec; flist [flist [Sym x_; Atom 5]]; Sym x_]])
        (CLambda 1 false [CLetrec [CConst (Atom 5)] [CLocal 0 0]]) (CLambda 1 false [CLetrec [CConst (Atom 5)] [CGlobal x_]]).
Proof. are_wrong. unfold lambda. cbn [flist map]. derive. Qed.
Print Assumptions C58_letrec_refuted.
(** Variables with the name of syntax: the call goes to the outer one.
    (lambda (quote) (lambda (quote) (quote 5))) *)
Theorem C58_keyword_refuted :
  wrong (lambda [k_quote] [lambda [k_quote] [flist [Sym k_quote; Atom 5]]])
        (CLambda 1 false [CLambda 1 false [CCall (CLocal 0 0) [CConst (Atom 5)] (CConst Nil)]])
        (CLambda 1 false [CLambda 1 false [CCall (CLocal 1 0) [CConst (Atom 5)] (CConst Nil)]]).
Proof. are_wrong. unfold lambda. cbn [flist map]. derive. Qed.
Print Assumptions C58_keyword_refuted.
(** An internal definition of a name that is the name of two variables around it: after a
    macro the name means the variable outside the definition.
    (lambda (y) (lambda (y) (define y 5) (when 3 y))) *)
Theorem C58_definition_refuted :
  wrong (lambda [y_] [lambda [y_] [flist [Sym k_define; Sym y_; Atom 5]; flist [Sym when_; Atom 3; Sym y_]]])
        (CLambda 1 false [CLambda 1 false [CCall (CLambda 1 false [CSet (CLocal 0 0) (CConst (Atom 5)); CIf [CConst (Atom 3); CSeq [CLocal 0 0]]]) [CConst Nil] (CConst Nil)]])
        (CLambda 1 false [CLambda 1 false [CCall (CLambda 1 false [CSet (CLocal 0 0) (CConst (Atom 5)); CIf [CConst (Atom 3); CSeq [CLocal 1 0]]]) [CConst Nil] (CConst Nil)]]).
Proof.
  are_wrong. unfold lambda. cbn [flist map]. eapply M_lambda; [split; look|formals_fine|discriminate|]. apply B_items. apply (I_cons _ _ _ _ _ _ _ _ [_]); [|apply I_nil].
  apply I_expression; [intros _; look|]. eapply M_lambda; [split; look|formals_fine|discriminate|].
  apply (B_definitions _ _ _ _ _ _ (flist [flist [Sym k_define; Sym y_; Atom 5]]) (flist [Sym y_]) (flist [flist [Sym when_; Atom 3; Sym y_]]) [_] [_]); try discriminate; [reflexivity| | |formals_fine].
  - apply D_variable; [split; look|reflexivity|derive|apply D_nil].
  - cbn [flist]. derive.
Qed.
Print Assumptions C58_definition_refuted.
(** An internal definition of a name that is the name of a macro: the rest of the body uses the macro.
    (lambda (y) (define and y) (and 1)) *)
Theorem C58_definition_macro_refuted :
  wrong (lambda [y_] [flist [Sym k_define; Sym and_; Sym y_]; flist [Sym and_; Atom 1]])
        (CLambda 1 false [CCall (CLambda 1 false [CSet (CLocal 0 0) (CLocal 1 0); CCall (CLocal 0 0) [CConst (Atom 1)] (CConst Nil)]) [CConst Nil] (CConst Nil)])
        (CLambda 1 false [CCall (CLambda 1 false [CSet (CLocal 0 0) (CLocal 1 0); CConst (Atom 1)]) [CConst Nil] (CConst Nil)]).
Proof.
  are_wrong. unfold lambda. cbn [flist map]. eapply M_lambda; [split; look|formals_fine|discriminate|].
  apply (B_definitions _ _ _ _ _ _ (flist [flist [Sym k_define; Sym and_; Sym y_]]) (flist [Sym and_]) (flist [flist [Sym and_; Atom 1]]) [_] [_]); try discriminate; [reflexivity| | |formals_fine].
  - apply D_variable; [split; look|reflexivity|derive|apply D_nil].
  - cbn [flist]. derive.
Qed.
Print Assumptions C58_definition_macro_refuted.
(** A macro that stands for the definition of a variable which it puts in, as define-values of no variables is
    (library/r7rs.ss:129-132): every pass over the body has a new variable, the expander does not end.
    (lambda (y) (d) 1) with (d) for (define x 5) *)
Definition ex_loop : form := lambda [y_] [flist [Sym d_]; Atom 1].
Theorem C58_introduced_refuted :
  as_read ex_loop /\
  ex_means false ex_loop (CLambda 1 false [CCall (CLambda 1 false [CSet (CLocal 0 0) (CConst (Atom 5)); CConst (Atom 1)]) [CConst Nil] (CConst Nil)]) /\
  forall fuel, compile ex_second ex_content (fun t => er_transform (ex_macro t)) ex_spec fuel 2 ex_loop 0 = Out.
Proof.
  split; [cbn; tauto|]. split.
  { apply P_expression. unfold ex_loop, lambda. cbn [flist map]. eapply M_lambda; [split; look|formals_fine|discriminate|].
    apply (B_macro _ _ _ _ _ _ Nil (Sym d_) 7 1 Nil (tlist [TName k_define; TName x_; TAtom 5]) (flist [Atom 1])); [discriminate|exact I|reflexivity|look|reflexivity|]. intros n B _. written.
    apply (B_definitions _ _ _ _ _ _ (flist [flist [Clo n [] 1 Nil (Sym k_define); Clo (S n) [] 1 Nil (Sym x_); Atom 5]]) (flist [Clo (S n) [] 1 Nil (Sym x_)]) (flist [Atom 1]) [_] [_]); try discriminate; [reflexivity| | |].
    - apply D_variable; [split; look|reflexivity|derive|apply D_nil].
    - cbn [flist]. derive.
    - split; [repeat constructor|cbn; auto]. }
  set (transform := fun t => er_transform (ex_macro t)).
  set (x0 := flist [flist [Sym d_]; Atom 1]).
  assert (Loop : forall fuel cur n formals k a, closures (fun c => id_of c < n) formals -> (cur = [(k, flist [Sym y_])] \/ exists m, cur = (m, formals) :: [(k, flist [Sym y_])]) ->
    sweep ex_second ex_content transform ex_spec fuel 2 x0 x0 [(k, flist [Sym y_])] cur [a] n formals Nil = Out).
  { intros fuel. induction fuel as [fuel IH] using lt_wf_ind. intros cur n formals k a Fr Cur. destruct fuel as [|fuel]; [reflexivity|]. unfold x0 at 2. cbn [sweep flist is_id].
    assert (K : keyword_of ex_content (identify ex_second (Sym d_) 2 [(k, Pair (Sym y_) Nil)]) = KMacro 7 [] 1) by (vm_compute; reflexivity). rewrite K.
    set (F := flist [Clo n [] 1 Nil (Sym k_define); Clo (S n) [] 1 Nil (Sym x_); Atom 5]).
    match goal with |- bind ?r ?f = Out => change (bind (Ok (Clo (S (S n)) cur 2 Nil F, S (S (S n)))) f = Out) end. cbn [bind].
    assert (Fresh : forall id E g fr f, n <= id -> spot (Clo id E g fr f) formals 0 = None) by (intros id E g fr f Le; apply (closures_spot_ids _ formals n 0 Fr); [reflexivity|exact Le]).
    assert (Pl : plain formals) by (revert Fr; apply closures_mono; auto).
    assert (Un : identify ex_second (Clo (S (S n)) cur 2 Nil F) 2 cur = Unknown).
    { cbn [identify is_id F flist]. destruct Cur as [->|(m & ->)]; [reflexivity|]. cbn [find_bound]. rewrite (find_formals_spot _ formals Pl 0 0), Fresh by lia. reflexivity. }
    assert (Def : forall bv, bv = [(k, flist [Sym y_])] \/ (exists m, bv = (m, formals) :: [(k, flist [Sym y_])]) -> keyword_of ex_content (closure_identify ex_second (Clo n [] 1 Nil (Sym k_define)) bv) = KSyntax k_define).
    { intros bv [->|(m & ->)]; vm_compute; reflexivity. }
    specialize (Def cur Cur).
    assert (Ex : forall fuel, expand_closure ex_second ex_content transform ex_spec fuel (Clo (S (S n)) cur 2 Nil F) cur [a] (S (S (S n))) = Out \/
      expand_closure ex_second ex_content transform ex_spec fuel (Clo (S (S n)) cur 2 Nil F) cur [a] (S (S (S n))) = Ok (F, [a], S (S (S n)))).
    { intros f. destruct f as [|f]; [left; reflexivity|]. cbn [expand_closure]. rewrite same_scope_refl. destruct f as [|f]; [left; reflexivity|]. cbn [expand F flist is_id convert]. rewrite Def.
      destruct f as [|f]; [left; reflexivity|]. destruct f as [|f]; [left; reflexivity|]. right. reflexivity. }
    destruct fuel as [|fuel]; [reflexivity|].
    refine (eq_trans (y := if known (identify ex_second (Clo (S (S n)) cur 2 Nil F) 2 cur) then _ else bind (expand_closure ex_second ex_content transform ex_spec fuel (Clo (S (S n)) cur 2 Nil F) cur [a] (S (S (S n))))
      (fun '(y, A, n') => sweep ex_second ex_content transform ex_spec fuel 2 x0 (Pair y (flist [Atom 1])) [(k, flist [Sym y_])] cur A n' formals Nil)) eq_refl _).
    rewrite Un. cbn [known]. destruct (Ex fuel) as [E|E]; rewrite E; [reflexivity|]. cbn [bind]. destruct fuel as [|fuel]; [reflexivity|]. unfold F at 1. cbn [sweep flist is_id].
    assert (Kd : keyword_of ex_content (identify ex_second (Clo n [] 1 Nil (Sym k_define)) 2 [(k, Pair (Sym y_) Nil)]) = KSyntax k_define) by (vm_compute; reflexivity). rewrite Kd.
    change (k_define =? k_begin) with false. change (k_define =? k_define) with true. cbn [car].
    assert (Mq : memq (Clo (S n) [] 1 Nil (Sym x_)) formals = false) by (eapply memq_spot, Fresh; lia). rewrite Mq.
    apply IH; [lia| |right; eexists; reflexivity]. clear -Fr. induction formals; cbn in *; try lia. split; [|tauto]. eapply closures_mono; [|apply Fr]. cbn. lia. }
  intros fuel. do 3 (destruct fuel as [|fuel]; [vm_compute; reflexivity|]). unfold compile, expand_form.
  assert (Ex : expand ex_second ex_content transform ex_spec (S (S (S fuel))) 2 ex_loop [] [Alpha [] 2 Nil []] 0 = Out); [|rewrite Ex; reflexivity].
  refine (eq_trans (y := bind (body ex_second ex_content transform ex_spec (S fuel) 2 x0 [(0, flist [Sym y_])] [Alpha [] 2 Nil []] 1) _) eq_refl _).
  assert (Bo : body ex_second ex_content transform ex_spec (S fuel) 2 x0 [(0, flist [Sym y_])] [Alpha [] 2 Nil []] 1 = Out); [|rewrite Bo; reflexivity].
  refine (eq_trans (y := bind (sweep ex_second ex_content transform ex_spec fuel 2 x0 x0 [(0, flist [Sym y_])] [(0, flist [Sym y_])] [Alpha [] 2 Nil []] 1 Nil Nil) _) eq_refl _).
  rewrite Loop; [reflexivity|exact I|left; reflexivity].
Qed.
Print Assumptions C58_introduced_refuted.
Theorem C58_scope_refuted : ~ C58_statement false.
Proof.
  intros H. destruct C58_shadowed_refuted as (R & M & C & N). apply N.
  apply (compiles_once _ 0 _ _ (H _ _ _ _ _ _ _ ex_setting R M 0) C).
Qed.
Print Assumptions C58_scope_refuted.

(** ** C59: the symbols that a macro puts in refer to the variables of the environment of its definition.
    For an environment that does not change after the definition of the macro this is part of C58.  The
    expander uses the environment as it was when define-syntax was evaluated (generator.cpp:241-254).
    [later] is the environment of the macros of the example as it is when the program is compiled: x has
    been defined. *)
Definition C59_statement (later : nat -> list (nat * nat)) : Prop :=
  forall x c, as_read x -> program_means later ex_content ex_macro 2 false x c -> forall n, ex_compiles x n c.
Definition later (g : nat) : list (nat * nat) := match g with 0 => in_core | _ => ex_second 2 end.
(** (lambda (x) (m)), where (m) stands for the global x: the variable of the lambda expression is captured *)
Theorem C59_capture_refuted : ~ C59_statement later.
Proof.
  intros H. assert (E : CLambda 1 false [CGlobal x_] = CLambda 1 false [CLocal 0 0]); [|discriminate E].
  apply (compiles_once (lambda [x_] [flist [Sym m_]]) 0); [|decide_compile]. apply H; [cbn; tauto|].
  apply P_expression. unfold lambda. cbn [flist map]. derive.
Qed.
Print Assumptions C59_capture_refuted.
(** (lambda (y) (u)), where (u) stands for a variable that is not defined when the macro is: the expander does not end *)
Theorem C59_undefined_refuted : forall fuel, compile ex_second ex_content (fun t => er_transform (ex_macro t)) ex_spec fuel 2 (lambda [y_] [flist [Sym u_]]) 0 = Out.
Proof.
  set (transform := fun t => er_transform (ex_macro t)).
  assert (Loop : forall fuel x0 i rest bv cur a A n formals specs, map snd cur = [flist [Sym y_]] ->
    sweep ex_second ex_content transform ex_spec fuel 2 x0 (Pair (Clo i [] 1 Nil (Sym z_)) rest) bv cur (a :: A) n formals specs = Out).
  { intros fuel. induction fuel as [|fuel IH]; intros x0 i rest bv cur a A n formals specs E; [reflexivity|].
    destruct cur as [|[m f] [|]]; try discriminate E. cbn in E. injection E as ->.
    assert (K : forall j, identify ex_second (Clo j [] 1 Nil (Sym z_)) 2 [(m, flist [Sym y_])] = Unknown) by (intros j; vm_compute; reflexivity).
    cbn [sweep]. rewrite K. cbn [known]. destruct fuel as [|fuel]; [reflexivity|]. cbn [expand_closure same_scope]. destruct fuel as [|fuel]; [reflexivity|].
    cbn [expand convert convert_sym memq a_free assq a_dict make_closure bind pop]. apply IH; reflexivity. }
  assert (Body : forall fuel x0 m a n, sweep ex_second ex_content transform ex_spec fuel 2 x0 (flist [flist [Sym u_]]) [(m, flist [Sym y_])] [(m, flist [Sym y_])] [a] n Nil Nil = Out).
  { intros fuel x0 m a n. destruct fuel as [|fuel]; [reflexivity|]. cbn [sweep flist is_id].
    assert (K : keyword_of ex_content (identify ex_second (Sym u_) 2 [(m, Pair (Sym y_) Nil)]) = KMacro 6 [] 1) by (vm_compute; reflexivity). rewrite K.
    unfold run_macro, transform, er_transform. cbn [ex_macro instance rename assq fst snd bind]. destruct fuel as [|fuel]; [reflexivity|]. cbn [sweep].
    assert (K2 : identify ex_second (Clo (S n) [(m, Pair (Sym y_) Nil)] 2 Nil (Clo n [] 1 Nil (Sym z_))) 2 [(m, Pair (Sym y_) Nil)] = Unknown) by (vm_compute; reflexivity).
    assert (K3 : identify ex_second (Clo n [] 1 Nil (Sym z_)) 2 [(m, Pair (Sym y_) Nil)] = Unknown) by (vm_compute; reflexivity).
    rewrite K2. cbn [known]. do 4 (destruct fuel as [|fuel]; [try reflexivity; cbn [expand_closure same_scope expand]; rewrite ?Nat.eqb_refl; cbn [expand]; rewrite ?K3; reflexivity|]).
    cbn [expand_closure]. cbn [same_scope]. rewrite Nat.eqb_refl. cbn [expand]. rewrite K3. cbn [known expand_closure same_scope expand convert convert_sym memq a_free assq a_dict make_closure bind pop].
    apply Loop; reflexivity. }
  intros fuel. do 3 (destruct fuel as [|fuel]; [vm_compute; reflexivity|]). unfold compile, expand_form.
  assert (Ex : expand ex_second ex_content transform ex_spec (S (S (S fuel))) 2 (lambda [y_] [flist [Sym u_]]) [] [Alpha [] 2 Nil []] 0 = Out); [|rewrite Ex; reflexivity].
  refine (eq_trans (y := bind (body ex_second ex_content transform ex_spec (S fuel) 2 (flist [flist [Sym u_]]) [(0, flist [Sym y_])] [Alpha [] 2 Nil []] 1) _) eq_refl _).
  assert (Bo : body ex_second ex_content transform ex_spec (S fuel) 2 (flist [flist [Sym u_]]) [(0, flist [Sym y_])] [Alpha [] 2 Nil []] 1 = Out); [|rewrite Bo; reflexivity].
  refine (eq_trans (y := bind (sweep ex_second ex_content transform ex_spec fuel 2 (flist [flist [Sym u_]]) (flist [flist [Sym u_]]) [(0, flist [Sym y_])] [(0, flist [Sym y_])] [Alpha [] 2 Nil []] 1 Nil Nil) _) eq_refl _).
  rewrite Body. reflexivity.
Qed.
Print Assumptions C59_undefined_refuted.
(** The partial statement: a macro defined in an environment in which s is a global variable
    and that has not changed since.  A use of it stands for this variable
    inside any number of lambda expressions, whatever their variables are called, unless they are called like a macro or syntax. *)
Fixpoint nest (fs : list form) (x : form) : form := match fs with [] => x | f :: fs => flist [Sym k_lambda; f; nest fs x] end.
Fixpoint nested (fs : list form) (c : code) : code := match fs with [] => c | f :: fs => CLambda (required f) (has_rest f) [nested fs c] end.
Theorem C59_reference_partial : forall second content macro spec_value g m t g' s c cl cm fs,
  setting second content macro ->
  bound m (second g) = Some cm -> content cm = Macro t g' -> macro t (flist [Sym m]) = Some (TName s) ->
  bound s (second g') = Some c -> content c = Value ->
  bound k_lambda (second g) = Some cl -> content cl = Syntax k_lambda ->
  Forall (fun f => as_read f /\ formals_ok f /\ Forall (not_macro second content g) (formal_names f)) fs ->
  forall n, compiles_to second content macro spec_value g (nest fs (flist [Sym m])) n (nested fs (CGlobal c)).
Proof.
  intros second content macro spec_value g m t g' s c cl cm fs Se Bm Cm Mm Bs Cs Bl Cl Fs n.
  apply (C58_scope_partial second content macro spec_value g _ _ Se).
  { induction Fs as [|f fs (R & _) _ IH]; cbn; [tauto|]. split; [exact I|]. split; [exact R|]. split; [exact IH|exact I]. }
  set (plain_env := Forall (fun f => as_read f /\ Forall (not_macro second content g) (formal_names f))).
  assert (Kw : forall k b, keyword_content second content g (Sym k) = Some b -> forall env, plain_env env -> kind second content g env (Sym k) = Some b).
  { intros k b K env P. unfold kind. replace (place (Sym k) env 0) with (@None (nat * nat * bool)); [exact K|]. generalize 0.
    induction P as [|f env [R N] _ IH]; intros i; [reflexivity|]. cbn [place]. destruct (spot (Sym k) f 0) as [p|] eqn:E; [|apply IH]. exfalso.
    destruct (spot_names (Sym k) f 0) as (w & Iw & Sw); [congruence|]. rewrite Forall_forall in N. specialize (N w Iw). destruct w; try discriminate Sw. apply Nat.eqb_eq in Sw. subst. unfold not_macro in N. congruence. }
  assert (Alias : forall env, plain_env env -> forall id i, place (Clo id [] g' Nil (Sym s)) env i = None).
  { intros env P. induction P as [|f env [R N] _ IH]; intros id i; [reflexivity|]. cbn [place]. rewrite (closures_spot_ids _ f 0 0); [apply IH|revert R; apply closures_mono; contradiction|reflexivity|lia]. }
  assert (Var : forall env n, plain_env env -> means second content macro g true env (stands_for (TName s) g' n) (CGlobal c)).
  { intros env n0 P. change (stands_for (TName s) g' n0) with (Clo n0 [] g' Nil (Sym s)). apply M_variable; [reflexivity| |]; unfold kind, denotes; rewrite (Alias env P); unfold keyword_content, cell; rewrite Bs; [rewrite Cs|]; reflexivity. }
  assert (Km : keyword_content second content g (Sym m) = Some (Macro t g')) by (unfold keyword_content, cell; rewrite Bm, Cm; reflexivity).
  assert (Kl : keyword_content second content g (Sym k_lambda) = Some (Syntax k_lambda)) by (unfold keyword_content, cell; rewrite Bl, Cl; reflexivity).
  assert (Mac : forall env, plain_env env -> means second content macro g true env (flist [Sym m]) (CGlobal c)).
  { intros env P. eapply M_macro; [reflexivity|apply (Kw _ _ Km env P)|exact Mm|intros _; exact I|]. intros. apply Var, P. }
  assert (Items : Forall (fun f => as_read f /\ formals_ok f /\ Forall (not_macro second content g) (formal_names f)) fs -> forall env, plain_env env ->
    item_means second content macro g true env (nest fs (flist [Sym m])) [nested fs (CGlobal c)] /\ means second content macro g true env (nest fs (flist [Sym m])) (nested fs (CGlobal c))).
  { clear Fs. induction 1 as [|f fs (R & Fo & N) _ IH]; intros env P.
    - split; [|apply Mac, P]. cbn [nest nested]. eapply I_macro; [reflexivity|apply (Kw _ _ Km env P)|exact Mm|intros _; exact I|]. intros. apply I_expression; [exact I|]. apply Var, P.
    - assert (M : means second content macro g true env (nest (f :: fs) (flist [Sym m])) (nested (f :: fs) (CGlobal c))).
      { cbn [nest nested flist]. apply M_lambda; [split; [reflexivity|apply (Kw _ _ Kl env P)]|exact Fo| |].
        - intros _. revert N. apply Forall_impl. intros v N. destruct v; try exact N. intros _. exact N.
        - apply B_items. apply (I_cons _ _ _ _ _ _ _ _ [_] []); [|apply I_nil]. apply IH. constructor; [split; assumption|exact P]. }
      split; [|exact M]. apply I_expression; [|exact M]. cbn. intros _. rewrite (Kw _ _ Kl env P). reflexivity. }
  apply P_expression, (Items Fs []), Forall_nil.
Qed.
Print Assumptions C59_reference_partial.
(** In the example, with the environment 2 for the macro too: (lambda (x) (lambda (x y) (m))) *)
Definition now_content (c : nat) : binding := if c =? m_ then Macro 4 2 else ex_content c.
Example C59_ex : compiles_to ex_second now_content ex_macro ex_spec 2 (nest [flist [Sym x_]; flist [Sym x_; Sym y_]] (flist [Sym m_])) 0 (CLambda 1 false [CLambda 2 false [CGlobal x_]]).
Proof.
  apply (C59_reference_partial ex_second now_content ex_macro ex_spec 2 m_ 4 2 x_ x_ k_lambda m_ [flist [Sym x_]; flist [Sym x_; Sym y_]]); try reflexivity.
  - split; [apply ex_setting|]. split; [exists k_lambda|exists k_set]; split; reflexivity.
  - repeat constructor.
Qed.

(** ** C60: a quoted datum is the datum, without syntactic closures.
    The full statement is about what a macro puts in as well ([strip] takes the aliases out): the rule M_quote of
    ExpanderSpec.v without its premise. *)
Theorem C60_inserted_refuted : (* (q), which stands for '(x y) *)
  wrong (flist [Sym q_]) (CConst (flist [Sym x_; Sym y_])) (CConst (flist [Clo 1 [] 1 Nil (Sym x_); Clo 2 [] 1 Nil (Sym y_)])).
Proof. are_wrong. cbn [flist]. derive. Qed.
Print Assumptions C60_inserted_refuted.
(** The data of the program are quoted unchanged, inside lambda expressions and macros as well: the form d of (quote d) that
    a macro is given is the datum; a symbol that a macro quotes is the symbol. *)
Theorem C60_program_partial : forall second content macro spec_value g d cq,
  setting second content macro -> bound k_quote (second g) = Some cq -> content cq = Syntax k_quote -> as_read d ->
  forall n, compiles_to second content macro spec_value g (flist [Sym k_quote; d]) n (CConst d).
Proof.
  intros second content macro spec_value g d cq Se B C R n. apply (C58_scope_partial second content macro spec_value g _ _ Se); [cbn; auto|].
  assert (St : strip d = d). { clear -R. induction d; cbn in *; try reflexivity; [destruct R as [R1 R2]; rewrite IHd1, IHd2 by assumption; reflexivity|destruct R]. }
  rewrite <- St at 2. apply P_expression, M_quote; [|intros _; right; exact R]. split; [reflexivity|]. unfold kind, keyword_content, cell. cbn [place]. rewrite B, C. reflexivity.
Qed.
Print Assumptions C60_program_partial.
Theorem C60_symbol_partial : forall second content macro spec_value g m cm t g' s cq,
  setting second content macro -> bound m (second g) = Some cm -> content cm = Macro t g' -> macro t (flist [Sym m]) = Some (tlist [TName k_quote; TName s]) ->
  bound k_quote (second g') = Some cq -> content cq = Syntax k_quote ->
  forall n, compiles_to second content macro spec_value g (flist [Sym m]) n (CConst (Sym s)).
Proof.
  intros second content macro spec_value g m cm t g' s cq Se Bm Cm Mm B C n. apply (C58_scope_partial second content macro spec_value g _ _ Se); [cbn; auto|].
  apply P_expression. eapply M_macro; [reflexivity|unfold kind, keyword_content, cell; cbn [place]; rewrite Bm, Cm; reflexivity|exact Mm|intros _; exact I|].
  intros k _ _. assert (St : exists j, stands_for (tlist [TName k_quote; TName s]) g' k = flist [Clo k [] g' Nil (Sym k_quote); Clo j [] g' Nil (Sym s)]).
  { unfold stands_for, tlist. cbn [write_out bound]. destruct (Nat.eqb_spec s k_quote) as [->|N]; [exists k|exists (S k)]; reflexivity. }
  destruct St as [j ->]. change (CConst (Sym s)) with (CConst (strip (Clo j [] g' Nil (Sym s)))). apply M_quote; [|intros _; left; reflexivity].
  split; [reflexivity|]. unfold kind, keyword_content, cell. cbn [place]. rewrite B, C. reflexivity.
Qed.
Print Assumptions C60_symbol_partial.
Example C60_ex : ex_compiles (flist [Sym k_quote; flist [Sym x_; flist [Sym k_if; Atom 5]]]) 0 (CConst (flist [Sym x_; flist [Sym k_if; Atom 5]])).
Proof. apply (C60_program_partial ex_second ex_content ex_macro ex_spec 2 _ k_quote ex_setting); try reflexivity. cbn. tauto. Qed.
