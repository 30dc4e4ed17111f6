(** * What delay, delay-force, parameterize and letrec* are compiled to (C107).
    The transformers are in ErMacros.v, the expander is Expander.v; [means] of ExpanderSpec.v is the code that a form in a
    scope should be compiled to, and C58 is that the expander compiles programs to the code that they mean.

    What the procedures promise, force and dynamic-bind, which are called here, do is C41 and C43. *)
From Coq Require Import List Bool Arith Lia.
From Verif Require Import Expander ExpanderSpec ExpanderProofs PropertiesExpander ErMacros.
Import ListNotations.

(** ** The environments of the libraries *)
Section Libraries.
Variable second : nat -> list (nat * nat).
Variable content : nat -> binding.
Variable macro : nat -> form -> option template.
(** s is a variable of the library with the environment gl, in the cell c; a macro of gl with the procedure f; a keyword of the core *)
Definition variable_of (gl s c : nat) : Prop := bound s (second gl) = Some c /\ content c = Value.
Definition macro_of (gl s : nat) (f : form -> option template) (g' : nat) : Prop :=
  exists c t, bound s (second gl) = Some c /\ content c = Macro t g' /\ forall x, macro t x = f x.
Definition keyword_in (gl k : nat) : Prop := exists c, bound k (second gl) = Some c /\ content c = Syntax k.
(** the keyword q of the scope env is the macro with the procedure f of the environment gl *)
Definition uses (g : nat) (env : list form) (q : form) (f : form -> option template) (gl : nat) : Prop :=
  is_id q = true /\ exists t, kind second content g env q = Some (Macro t gl) /\ forall x, macro t x = f x.
End Libraries.

(** ** Specification *)
Definition call (f : code) (args : list code) : code := CCall f args (CConst Nil).
(** (promise #f (lambda () e)): a promise that is not done, with a thunk for e *)
Definition lazy_code (promise : nat) (body : list code) : code := call (CGlobal promise) [CConst (Atom a_false); CLambda 0 false body].
(** its thunk makes a promise that is done, with the value of e *)
Definition delay_code (promise : nat) (e : code) : code := lazy_code promise [call (CGlobal promise) [CConst (Atom a_true); e]].
(** the parameters, the values, and a thunk for the body *)
Definition parameterize_code (dynamic_bind list_ : nat) (ps vs body : list code) : code :=
  call (CGlobal dynamic_bind) [call (CGlobal list_) ps; call (CGlobal list_) vs; CLambda 0 false body].
(** variables which are assigned the inits in order, then the body *)
Definition letrec_star_code (inits body : list code) : code :=
  call (CLambda 0 false match inits with [] => body | _ => [call (CLambda (length inits) false (assignments 0 inits ++ body)) (repeat (CConst Nil) (length inits))] end) [].

Lemma fresh_place n m E g fr f env i : Forall (below n) env -> n <= m -> place (Clo m E g fr f) env i = None.
Proof.
  intros F L. revert i. induction F as [|x env B _ IH]; intros i; [reflexivity|]. cbn [place]. rewrite (closures_spot_ids _ x n 0); [apply IH| |reflexivity|exact L].
  revert B. unfold below. apply closures_mono. tauto.
Qed.
Lemma fresh_place_nil n m E g fr f env i : Forall (below n) env -> n <= m -> place (Clo m E g fr f) (Nil :: env) i = None.
Proof. intros F L. cbn [place spot identical]. apply (fresh_place n); assumption. Qed.

Section Rules.
Variable second : nat -> list (nat * nat).
Variable content : nat -> binding.
Variable macro : nat -> form -> option template.
Variable g : nat.
Variable b : bool.
Notation means := (means second content macro g b).
Notation body_means := (body_means second content macro g b).

Lemma alias_variable n m gl s c env : Forall (below n) env -> n <= m -> variable_of second content gl s c ->
  means env (Clo m [] gl Nil (Sym s)) (CGlobal c) /\ kind second content g env (Clo m [] gl Nil (Sym s)) = None.
Proof.
  intros F L (B & C). assert (K : kind second content g env (Clo m [] gl Nil (Sym s)) = None).
  { unfold kind. rewrite (fresh_place n) by assumption. unfold keyword_content, cell. rewrite B, C. reflexivity. }
  split; [|exact K]. apply M_variable; [reflexivity|exact K|]. unfold denotes. rewrite (fresh_place n) by assumption. unfold cell. rewrite B. reflexivity.
Qed.
Lemma alias_keyword n m gl k env : Forall (below n) env -> n <= m -> keyword_in second content gl k -> syntax second content g env (Clo m [] gl Nil (Sym k)) k.
Proof.
  intros F L (c & B & C). split; [reflexivity|]. unfold kind. rewrite (fresh_place n) by assumption. unfold keyword_content, cell. rewrite B, C. reflexivity.
Qed.
Lemma alias_macro n m gl s f gl' env : Forall (below n) env -> n <= m -> macro_of second content macro gl s f gl' -> uses second content macro g env (Clo m [] gl Nil (Sym s)) f gl'.
Proof.
  intros F L (c & t & B & C & E). split; [reflexivity|]. exists t. split; [|exact E]. unfold kind. rewrite (fresh_place n) by assumption. unfold keyword_content, cell. rewrite B, C. reflexivity.
Qed.
Lemma below_nil n env : Forall (below n) env -> Forall (below n) (Nil :: env).
Proof. intros F. constructor; [exact Logic.I|exact F]. Qed.
Lemma use env q f gl xs tp c : uses second content macro g env q f gl -> f (Pair q xs) = Some tp -> (b = true -> not_shadowing env tp) ->
  (forall n, Forall (below n) env -> below n (Pair q xs) -> means env (stands_for tp gl n) c) -> means env (Pair q xs) c.
Proof. intros (I & t & K & E) T N H. eapply M_macro; [exact I|exact K|rewrite E; exact T|exact N|exact H]. Qed.
Lemma call_global n m gl s c env xs cs : Forall (below n) env -> n <= m -> variable_of second content gl s c -> all_mean second content macro g b env xs cs ->
  means env (Pair (Clo m [] gl Nil (Sym s)) xs) (call (CGlobal c) cs).
Proof. intros F L V A. destruct (alias_variable n m gl s c env F L V) as (M & K). apply M_call; [intros _; exact K|exact M|exact A]. Qed.
Lemma thunk n m gl env xs cs : Forall (below n) env -> n <= m -> keyword_in second content gl k_lambda -> body_means (Nil :: env) xs cs ->
  means env (Pair (Clo m [] gl Nil (Sym k_lambda)) (Pair Nil xs)) (CLambda 0 false cs).
Proof.
  intros F L K B. apply (M_lambda _ _ _ _ _ _ _ Nil); [apply (alias_keyword n); assumption|split; [constructor|exact Logic.I]|intros _; constructor|exact B].
Qed.

Lemma lazy_means env q gl cp e cs : uses second content macro g env q lazy_ gl -> variable_of second content gl s_promise cp -> keyword_in second content gl k_lambda ->
  body_means (Nil :: env) (flist [e]) cs -> means env (flist [q; e]) (lazy_code cp cs).
Proof.
  intros U V K B. eapply use; [exact U|reflexivity|intros _; exact Logic.I|]. intros n F _.
  change (stands_for _ gl n) with (flist [Clo n [] gl Nil (Sym s_promise); Atom a_false; flist [Clo (S n) [] gl Nil (Sym k_lambda); Nil; e]]).
  apply (call_global n); [exact F|lia|exact V|]. repeat apply A_cons; [apply M_atom| |apply A_nil]. apply (thunk n); [exact F|lia|exact K|exact B].
Qed.
Lemma delay_means env q gl cp e c : uses second content macro g env q delay_ gl -> macro_of second content macro gl s_lazy lazy_ gl ->
  variable_of second content gl s_promise cp -> keyword_in second content gl k_lambda ->
  means (Nil :: env) e c -> means env (flist [q; e]) (delay_code cp c).
Proof.
  intros U Z V K M. eapply use; [exact U|reflexivity|intros _; exact Logic.I|]. intros n F _.
  change (stands_for _ gl n) with (flist [Clo n [] gl Nil (Sym s_lazy); flist [Clo (S n) [] gl Nil (Sym s_promise); Atom a_true; e]]).
  eapply lazy_means; [apply (alias_macro n); [exact F|lia|exact Z]|exact V|exact K|].
  apply B_items. apply (I_cons _ _ _ _ _ _ _ _ [_] []); [|apply I_nil].
  destruct (alias_variable n (S n) gl s_promise cp (Nil :: env) (below_nil _ _ F) ltac:(lia) V) as (_ & Kd).
  apply I_expression; [cbn [expression flist]; intros _; rewrite Kd; exact Logic.I|]. apply (call_global n); [apply below_nil, F|lia|exact V|].
  repeat apply A_cons; [apply M_atom|exact M|apply A_nil].
Qed.
(** the binding specs ((p v) ...) *)
Fixpoint specs (ps vs : list form) : form := match ps, vs with p :: ps, v :: vs => Pair (flist [p; v]) (specs ps vs) | _, _ => Nil end.
Lemma cars_specs ps : forall vs, length ps = length vs -> cars (specs ps vs) = Some (flist ps) /\ cadrs (specs ps vs) = Some (flist vs).
Proof.
  induction ps as [|p ps IH]; intros [|v vs] L; try discriminate L; [split; reflexivity|]. injection L as L. destruct (IH vs L) as (A & B).
  cbn [specs flist cars cadrs]. rewrite A, B. split; reflexivity.
Qed.
Lemma parameterize_means env q gl cd cl ps vs body cps cvs cs : uses second content macro g env q parameterize_ gl ->
  variable_of second content gl s_dynamic_bind cd -> variable_of second content gl s_list cl -> keyword_in second content gl k_lambda -> length ps = length vs ->
  all_mean second content macro g b env (flist ps) cps -> all_mean second content macro g b env (flist vs) cvs -> body_means (Nil :: env) body cs ->
  means env (Pair q (Pair (specs ps vs) body)) (parameterize_code cd cl cps cvs cs).
Proof.
  intros U Vd Vl K L Ap Av B. destruct (cars_specs ps vs L) as (E1 & E2). eapply use; [exact U|cbn [parameterize_]; rewrite E1, E2; reflexivity|intros _; exact Logic.I|]. intros n F _.
  change (stands_for _ gl n) with (flist [Clo n [] gl Nil (Sym s_dynamic_bind); Pair (Clo (S n) [] gl Nil (Sym s_list)) (flist ps); Pair (Clo (S n) [] gl Nil (Sym s_list)) (flist vs);
    Pair (Clo (S (S n)) [] gl Nil (Sym k_lambda)) (Pair Nil body)]).
  apply (call_global n); [exact F|lia|exact Vd|]. repeat apply A_cons; [| | |apply A_nil].
  - apply (call_global n); [exact F|lia|exact Vl|exact Ap].
  - apply (call_global n); [exact F|lia|exact Vl|exact Av].
  - apply (thunk n); [exact F|lia|exact K|exact B].
Qed.

(** let *)
Lemma has_rest_flist (l : list form) : has_rest (flist l) = false.
Proof. induction l; cbn; congruence. Qed.
Lemma specs_is_id vs is : is_id (specs vs is) = false.
Proof. destruct vs, is; reflexivity. Qed.
Lemma required_list (l : list form) : required (flist l) = length l.
Proof. induction l; cbn; congruence. Qed.
Lemma names_list (l : list form) : formal_names (flist l) = l.
Proof. induction l; cbn; congruence. Qed.
Lemma lambda_list n m gl env vs xs cs : Forall (below n) env -> n <= m -> keyword_in second content gl k_lambda -> formals_ok (flist vs) ->
  (b = true -> Forall (careful_variable second content g env) vs) -> body_means (flist vs :: env) xs cs ->
  means env (Pair (Clo m [] gl Nil (Sym k_lambda)) (Pair (flist vs) xs)) (CLambda (length vs) false cs).
Proof.
  intros F L K Fo Ca B. rewrite <- (required_list vs), <- (has_rest_flist vs). apply M_lambda; [apply (alias_keyword n); assumption|exact Fo|rewrite names_list; exact Ca|exact B].
Qed.
Lemma let_means env q gl vs is body inits cs : uses second content macro g env q let_ gl -> keyword_in second content gl k_lambda ->
  length vs = length is -> formals_ok (flist vs) -> (b = true -> Forall (careful_variable second content g env) vs) ->
  all_mean second content macro g b env (flist is) inits -> body_means (flist vs :: env) body cs ->
  means env (Pair q (Pair (specs vs is) body)) (call (CLambda (length vs) false cs) inits).
Proof.
  intros U K L Fo Ca A B. destruct (cars_specs vs is L) as (E1 & E2). eapply use; [exact U|cbn [let_]; rewrite specs_is_id, E1, E2; reflexivity|intros _; exact Logic.I|]. intros n F _.
  change (stands_for _ gl n) with (Pair (Pair (Clo n [] gl Nil (Sym k_lambda)) (Pair (flist vs) body)) (flist is)).
  apply M_call; [discriminate| |exact A]. apply (lambda_list n); [exact F|lia|exact K|exact Fo|exact Ca|exact B].
Qed.
Lemma named_let_means env q gl f vs is body inits cs : uses second content macro g env q let_ gl -> keyword_in second content gl k_lambda -> keyword_in second content gl k_letrec ->
  is_id f = true -> (b = true -> local_free f env /\ careful_variable second content g env f) ->
  length vs = length is -> formals_ok (flist vs) -> (b = true -> Forall (careful_variable second content g (flist [f] :: env)) vs) ->
  all_mean second content macro g b (flist [f] :: env) (flist is) inits -> body_means (flist vs :: flist [f] :: env) body cs ->
  means env (Pair q (Pair f (Pair (specs vs is) body))) (CLetrec [CLambda (length vs) false cs] [call (CLocal 0 0) inits]).
Proof.
  intros U Kl Kr If Cf L Fo Ca A B. destruct (cars_specs vs is L) as (E1 & E2). eapply use; [exact U|cbn [let_]; rewrite If, E1, E2; reflexivity|intros _; exact Logic.I|]. intros n F Bn.
  change (stands_for _ gl n) with (flist [Clo n [] gl Nil (Sym k_letrec); flist [flist [f; Pair (Clo (S n) [] gl Nil (Sym k_lambda)) (Pair (flist vs) body)]]; Pair f (flist is)]).
  assert (F' : Forall (below n) (flist [f] :: env)).
  { constructor; [|exact F]. unfold below in *. cbn [closures flist] in Bn |- *. tauto. }
  assert (Pl : place f (flist [f] :: env) 0 = Some (0, 0, false)).
  { cbn [place flist spot]. assert (Id : identical f f = true) by (destruct f; try discriminate If; apply Nat.eqb_refl). rewrite Id. reflexivity. }
  assert (Kf : kind second content g (flist [f] :: env) f = None) by (unfold kind; rewrite Pl; reflexivity).
  assert (Mf : means (flist [f] :: env) f (CLocal 0 0)) by (apply M_variable; [exact If|exact Kf|unfold denotes; rewrite Pl; reflexivity]).
  apply M_letrec.
  - apply (alias_keyword n); [exact F|lia|exact Kr].
  - split; [cbn; constructor; [exact If|constructor]|cbn; auto].
  - intros Eb. cbn. constructor; [exact (Cf Eb)|constructor].
  - cbn [variables_of flist]. apply (S_cons _ _ _ _ _ _ f); [|apply S_nil]. apply (lambda_list n); [exact F'|lia|exact Kl|exact Fo|exact Ca|exact B].
  - change (variables_of _) with (flist [f]). apply B_items, (I_cons _ _ _ _ _ _ _ _ [_] []); [|apply I_nil]. apply I_expression; [unfold expression; intros _; rewrite Kf; exact Logic.I|].
    apply M_call; [intros _; exact Kf|exact Mf|exact A].
Qed.

(** letrec* *)
Fixpoint defines (d : form) (vs is : list form) : form := match vs, is with v :: vs, i :: is => Pair (flist [d; v; i]) (defines d vs is) | _, _ => Nil end.
Lemma definitions_specs vs : forall is body, length vs = length is -> exists tp, definitions (specs vs is) body = Some tp /\
  (forall gl l m, fst (fst (write_out gl tp [(k_define, Clo m [] gl Nil (Sym k_define)); (s_let, Clo l [] gl Nil (Sym s_let))] (S m))) = join (defines (Clo m [] gl Nil (Sym k_define)) vs is) body) /\
  (forall gl l m, fst (fst (write_out gl tp [(s_let, Clo l [] gl Nil (Sym s_let))] m)) = join (defines (Clo m [] gl Nil (Sym k_define)) vs is) body).
Proof.
  induction vs as [|v vs IH]; intros [|i is] body L; try discriminate L.
  - exists (TForm body). repeat split; reflexivity.
  - injection L as L. destruct (IH is body L) as (tp & E & W1 & _). cbn [specs definitions]. rewrite E. eexists. split; [reflexivity|].
    split; intros gl l m.
    + cbn [write_out bound]. rewrite Nat.eqb_refl. specialize (W1 gl l m). destruct (write_out gl tp _ (S m)) as [[x al] n']. cbn [fst] in W1 |- *. rewrite W1. reflexivity.
    + cbn [write_out bound]. change (k_define =? s_let) with false. cbv iota. specialize (W1 gl l m). destruct (write_out gl tp _ (S m)) as [[x al] n']. cbn [fst] in W1 |- *. rewrite W1. reflexivity.
Qed.
Lemma variables_specs vs : forall is, length vs = length is -> variables_of (specs vs is) = flist vs.
Proof. induction vs as [|v vs IH]; intros [|i is] L; try discriminate L; [reflexivity|]. injection L as L. cbn [specs flist variables_of]. rewrite (IH is L). reflexivity. Qed.
Lemma defines_mean env outer d : syntax second content g outer d k_define -> forall vs is cs, length vs = length is -> Forall (fun v => is_id v = true) vs ->
  specs_mean second content macro g b env (specs vs is) cs -> definitions_mean second content macro g b env outer (defines d vs is) (flist vs) cs.
Proof.
  intros S vs. induction vs as [|v vs IH]; intros [|i is] cs L Id M; try discriminate L; cbn [specs defines flist] in *.
  - inversion M. apply D_nil.
  - injection L as L. inversion Id as [|v' vs' Iv Ivs]; subst. inversion M as [|v' x' sp c cs' Mx Ms]; subst. apply D_variable; [exact S|exact Iv|exact Mx|apply IH; assumption].
Qed.
Lemma specs_mean_length env : forall vs is cs, length vs = length is -> specs_mean second content macro g b env (specs vs is) cs -> length cs = length vs.
Proof.
  induction vs as [|v vs IH]; intros [|i is] cs L M; try discriminate L; cbn [specs] in M; inversion M; subst; [reflexivity|]. cbn [length]. f_equal. injection L as L. eapply IH; eassumption.
Qed.
Lemma required_flist (l : list form) : required (flist l) = length l.
Proof. induction l; cbn; congruence. Qed.
Lemma formal_names_flist (l : list form) : formal_names (flist l) = l.
Proof. induction l; cbn; congruence. Qed.

(** the definitions of the user's body are among those of letrec*: [ds'] and [xs], with the variables [vs'] *)
Lemma letrec_star_means env q gl gl' vs is ds' vs' xs inits cs : uses second content macro g env q letrec_star gl ->
  macro_of second content macro gl s_let let_ gl' -> keyword_in second content gl k_define -> keyword_in second content gl' k_lambda -> length vs = length is ->
  vs <> [] -> Forall (fun v => is_id v = true) vs ->
  (forall d n, syntax second content g (Nil :: env) d k_define -> Forall (below n) env -> below n (Pair q (Pair (specs vs is) (join ds' xs))) ->
    definitions_mean second content macro g b (join (flist vs) vs' :: Nil :: env) (Nil :: env) (join (defines d vs is) ds') (join (flist vs) vs') inits) ->
  items_mean second content macro g b (join (flist vs) vs' :: Nil :: env) xs cs -> formals_ok (join (flist vs) vs') ->
  (b = true -> Forall (fun v => local_free v (Nil :: env) /\ not_macro second content g v) (formal_names (join (flist vs) vs'))) ->
  means env (Pair q (Pair (specs vs is) (join ds' xs)))
    (call (CLambda 0 false [call (CLambda (required (join (flist vs) vs')) false (assignments 0 inits ++ cs)) (repeat (CConst Nil) (required (join (flist vs) vs')))]) []).
Proof.
  intros U Lt Kd Kl L Ne Iv D M Fo Ca. destruct (definitions_specs vs is (join ds' xs) L) as (tp & E & _ & W). eapply use; [exact U|cbn [letrec_star]; rewrite E; reflexivity|intros _; exact Logic.I|].
  intros n F Bn. assert (St : stands_for (TPair (TName s_let) (TPair TNil tp)) gl n = Pair (Clo n [] gl Nil (Sym s_let)) (Pair Nil (join (defines (Clo (S n) [] gl Nil (Sym k_define)) vs is) (join ds' xs)))).
  { unfold stands_for. cbn [write_out bound]. specialize (W gl n (S n)). destruct (write_out gl tp _ (S n)) as [[x al] n']. cbn [fst] in W |- *. rewrite W. reflexivity. }
  rewrite St. eapply use; [apply (alias_macro n); [exact F|lia|exact Lt]|reflexivity|intros _; exact Logic.I|]. intros m F' _.
  set (body := join (defines _ vs is) (join ds' xs)).
  change (stands_for _ gl' m) with (Pair (Pair (Clo m [] gl' Nil (Sym k_lambda)) (Pair Nil body)) Nil).
  apply M_call; [discriminate| |apply A_nil]. apply (thunk m); [exact F'|lia|exact Kl|].
  assert (J : body = join (join (defines (Clo (S n) [] gl Nil (Sym k_define)) vs is) ds') xs).
  { unfold body. generalize (Clo (S n) [] gl Nil (Sym k_define)). intros d. clear -L. revert is L. induction vs as [|v vs IH]; intros [|i is] L; try discriminate L; [reflexivity|]. cbn [defines flist join]. f_equal. apply IH. injection L as L. exact L. }
  rewrite J. apply (B_definitions _ _ _ _ _ _ _ (join (flist vs) vs')).
  - destruct vs, is; try discriminate L; [contradiction Ne; reflexivity|reflexivity].
  - apply (D _ n); [apply (alias_keyword n); [apply below_nil, F|lia|exact Kd]|exact F|exact Bn].
  - exact M.
  - exact Fo.
  - exact Ca.
Qed.
End Rules.

(** ** C107.  In any scope env of a program, for any binding of the keyword q that is the macro: the rules that the macros obey.
    [careful] is as in C58; with [careful = true] the programs are compiled as these rules say (C58_scope_partial). *)
Theorem C107_delay_force : forall second content macro g careful env q gl cp e cs,
  uses second content macro g env q lazy_ gl -> variable_of second content gl s_promise cp -> keyword_in second content gl k_lambda ->
  body_means second content macro g careful (Nil :: env) (flist [e]) cs -> means second content macro g careful env (flist [q; e]) (lazy_code cp cs).
Proof. exact lazy_means. Qed.
Print Assumptions C107_delay_force.
Theorem C107_delay : forall second content macro g careful env q gl cp e c,
  uses second content macro g env q delay_ gl -> macro_of second content macro gl s_lazy lazy_ gl ->
  variable_of second content gl s_promise cp -> keyword_in second content gl k_lambda ->
  means second content macro g careful (Nil :: env) e c -> means second content macro g careful env (flist [q; e]) (delay_code cp c).
Proof. exact delay_means. Qed.
Print Assumptions C107_delay.
Theorem C107_parameterize : forall second content macro g careful env q gl cd cl ps vs body cps cvs cs,
  uses second content macro g env q parameterize_ gl ->
  variable_of second content gl s_dynamic_bind cd -> variable_of second content gl s_list cl -> keyword_in second content gl k_lambda -> length ps = length vs ->
  all_mean second content macro g careful env (flist ps) cps -> all_mean second content macro g careful env (flist vs) cvs ->
  body_means second content macro g careful (Nil :: env) body cs ->
  means second content macro g careful env (Pair q (Pair (specs ps vs) body)) (parameterize_code cd cl cps cvs cs).
Proof. exact parameterize_means. Qed.
Print Assumptions C107_parameterize.
(** The scope of the inits and of the body of letrec* *)
Definition inner (vs : list form) (env : list form) : list form := match vs with [] => Nil :: env | _ => flist vs :: Nil :: env end.
(** With [whole = true] the body may have definitions of its own, which are variables inside of those of letrec* *)
Definition C107_letrec_star_statement (whole : bool) : Prop :=
  forall second content macro g careful env q gl gl' vs is body inits cs,
  uses second content macro g env q letrec_star gl ->
  macro_of second content macro gl s_let let_ gl' -> keyword_in second content gl k_define -> keyword_in second content gl' k_lambda ->
  length vs = length is -> formals_ok (flist vs) ->
  (careful = true -> Forall (fun v => local_free v (Nil :: env) /\ not_macro second content g v) vs) ->
  specs_mean second content macro g careful (inner vs env) (specs vs is) inits ->
  (if whole then body_means second content macro g careful (inner vs env) body cs else items_mean second content macro g careful (inner vs env) body cs) ->
  means second content macro g careful env (Pair q (Pair (specs vs is) body)) (letrec_star_code inits cs).
Theorem C107_letrec_star_partial : C107_letrec_star_statement false.
Proof.
  intros second content macro g b env q gl gl' vs is body inits cs U Lt Kd Kl L Fo Ca Sp M. destruct vs as [|v vs].
  { destruct is; [|discriminate L]. inversion Sp; subst. cbn [inner specs] in *. eapply use; [exact U|reflexivity|intros _; exact Logic.I|]. intros n F _.
    change (stands_for _ gl n) with (Pair (Clo n [] gl Nil (Sym s_let)) (Pair Nil body)).
    eapply use; [apply (alias_macro _ _ _ _ n); [exact F|lia|exact Lt]|reflexivity|intros _; exact Logic.I|]. intros m F' _.
    change (stands_for _ gl' m) with (Pair (Pair (Clo m [] gl' Nil (Sym k_lambda)) (Pair Nil body)) Nil).
    apply M_call; [discriminate| |apply A_nil]. apply (thunk _ _ _ _ _ m); [exact F'|lia|exact Kl|apply B_items, M]. }
  assert (J : forall l, join (flist l) Nil = flist l) by (induction l; cbn [flist join]; congruence).
  assert (J' : forall d vs is, join (defines d vs is) Nil = defines d vs is).
  { intros d vs0. induction vs0 as [|v0 vs0 IH]; intros [|i0 is0]; cbn [defines join]; try reflexivity. rewrite IH. reflexivity. }
  pose proof (letrec_star_means second content macro g b env q gl gl' (v :: vs) is Nil Nil body inits cs U Lt Kd Kl L) as R. rewrite J in R. rewrite required_flist, formal_names_flist in R.
  unfold letrec_star_code. rewrite (specs_mean_length _ _ _ _ _ _ (v :: vs) is inits L Sp).
  assert (Ne : inits <> []) by (intros ->; pose proof (specs_mean_length _ _ _ _ _ _ (v :: vs) is [] L Sp) as Bad; discriminate Bad). destruct inits as [|c0 inits]; [contradiction Ne; reflexivity|].
  assert (Ids : Forall (fun v => is_id v = true) (v :: vs)) by (destruct Fo as (Fo & _); rewrite formal_names_flist in Fo; exact Fo).
  apply R; [discriminate|exact Ids| |exact M|exact Fo|exact Ca].
  intros d n Sd _ _. rewrite J'. apply defines_mean; [exact Sd|exact L|exact Ids|exact Sp].
Qed.
Print Assumptions C107_letrec_star_partial.

(** let: a call of the procedure of the variables and the body, with the inits, which are in the scope of let itself *)
Theorem C107_let : forall second content macro g careful env q gl vs is body inits cs,
  uses second content macro g env q let_ gl -> keyword_in second content gl k_lambda ->
  length vs = length is -> formals_ok (flist vs) -> (careful = true -> Forall (careful_variable second content g env) vs) ->
  all_mean second content macro g careful env (flist is) inits -> body_means second content macro g careful (flist vs :: env) body cs ->
  means second content macro g careful env (Pair q (Pair (specs vs is) body)) (call (CLambda (length vs) false cs) inits).
Proof. exact let_means. Qed.
Print Assumptions C107_let.
(** The named let: the inits should be in the scope of let itself; what is missing is that they are in the scope of the name, too
    (C65_named_let_refuted) *)
Theorem C107_named_let_partial : forall second content macro g careful env q gl f vs is body inits cs,
  uses second content macro g env q let_ gl -> keyword_in second content gl k_lambda -> keyword_in second content gl k_letrec ->
  is_id f = true -> (careful = true -> local_free f env /\ careful_variable second content g env f) ->
  length vs = length is -> formals_ok (flist vs) -> (careful = true -> Forall (careful_variable second content g (flist [f] :: env)) vs) ->
  all_mean second content macro g careful (flist [f] :: env) (flist is) inits -> body_means second content macro g careful (flist vs :: flist [f] :: env) body cs ->
  means second content macro g careful env (Pair q (Pair f (Pair (specs vs is) body))) (CLetrec [CLambda (length vs) false cs] [call (CLocal 0 0) inits]).
Proof. exact named_let_means. Qed.
Print Assumptions C107_named_let_partial.

(** Programs are compiled to this code *)
Theorem C107_compiled : forall second content macro spec_value g x c, setting second content macro -> as_read x ->
  means second content macro g true [] x c -> forall n, compiles_to second content macro spec_value g x n c.
Proof. intros second content macro spec_value g x c S R M n. apply (C58_scope_partial second content macro spec_value g x c S R); [apply P_expression, M]. Qed.
Print Assumptions C107_compiled.

(** ** Examples.  0 is the core, 1 the environment of the libraries, 2 the one of the program *)
Definition n_delay := 50.  Definition n_lazy := 41.  Definition n_parameterize := 51.  Definition n_letrec_star := 52.  Definition n_p := 53.
Definition lib_second (g : nat) : list (nat * nat) :=
  match g with
  | 0 => in_core
  | 1 => map (fun k => (k, k)) [s_promise; s_lazy; s_dynamic_bind; s_list; s_let] ++ in_core
  | _ => map (fun k => (k, k)) [x_; y_; n_p; n_delay; s_lazy; n_parameterize; n_letrec_star; s_let] ++ in_core
  end.
Definition lib_content (c : nat) : binding :=
  if c <? keywords then Syntax c
  else if c =? s_lazy then Macro 0 1 else if c =? n_delay then Macro 1 1 else if c =? n_parameterize then Macro 2 1
  else if c =? n_letrec_star then Macro 3 1 else if c =? s_let then Macro 4 1 else Value.
Definition lib_macro (t : nat) : form -> option template :=
  match t with 0 => lazy_ | 1 => delay_ | 2 => parameterize_ | 3 => letrec_star | 4 => let_ | _ => fun _ => None end.
Lemma closures_cars ok x : forall l, cars x = Some l -> closures ok x -> closures ok l.
Proof.
  induction x as [| | |a IHa d IHd| |]; intros l Eq C; try discriminate Eq; [injection Eq as <-; exact Logic.I|]. cbn [cars] in Eq. destruct a; try discriminate Eq.
  destruct (cars d) as [l'|]; [|discriminate Eq]. injection Eq as <-. cbn in *. split; [tauto|]. apply IHd; [reflexivity|tauto].
Qed.
Lemma closures_cadrs ok x : forall l, cadrs x = Some l -> closures ok x -> closures ok l.
Proof.
  induction x as [| | |a IHa d IHd| |]; intros l Eq C; try discriminate Eq; [injection Eq as <-; exact Logic.I|]. cbn [cadrs] in Eq. destruct a as [| | |a1 a2| |]; try discriminate Eq. destruct a2; try discriminate Eq.
  destruct (cadrs d) as [l'|]; [|discriminate Eq]. injection Eq as <-. cbn in *. split; [tauto|]. apply IHd; [reflexivity|tauto].
Qed.
Lemma parts_definitions ok sp body : forall tp, definitions sp body = Some tp -> closures ok sp -> closures ok body -> template_parts ok tp.
Proof.
  induction sp as [| | |a IHa d IHd| |]; intros tp Eq C Cb; try discriminate Eq; [injection Eq as <-; exact Cb|]. cbn [definitions] in Eq.
  destruct (definitions d body) as [r|]; [|discriminate Eq]. injection Eq as <-. cbn in *. split; [tauto|]. apply IHd; [reflexivity|tauto|exact Cb].
Qed.
Lemma lib_setting : setting lib_second lib_content lib_macro.
Proof.
  split; [|split; [exists k_lambda|exists k_set]; split; reflexivity]. intros t x tp M ok C.
  destruct t as [|[|[|[|[|t]]]]]; cbn [lib_macro] in M; try discriminate M; destruct x as [| | |a d| |]; try discriminate M; destruct d as [| | |e r| |]; try discriminate M; cbn in C; destruct C as (Ca & Ce & Cr).
  - injection M as <-. cbn. tauto.
  - injection M as <-. cbn. tauto.
  - cbn [parameterize_] in M. destruct (cars e) as [ps|] eqn:Ep; [|discriminate M]. destruct (cadrs e) as [vs|] eqn:Ev; [|discriminate M]. injection M as <-.
    pose proof (closures_cars ok e ps Ep Ce). pose proof (closures_cadrs ok e vs Ev Ce). cbn. tauto.
  - cbn [letrec_star] in M. destruct (definitions e r) as [tp'|] eqn:Ed; [|discriminate M]. injection M as <-. pose proof (parts_definitions ok e r tp' Ed Ce Cr). cbn. tauto.
  - cbn [let_] in M. destruct (is_id e).
    + destruct r as [| | |sp body| |]; try discriminate M. destruct Cr as (Cs & Cb). destruct (cars sp) as [ps|] eqn:Ep; [|discriminate M]. destruct (cadrs sp) as [vs|] eqn:Ev; [|discriminate M]. injection M as <-.
      pose proof (closures_cars ok sp ps Ep Cs). pose proof (closures_cadrs ok sp vs Ev Cs). cbn. tauto.
    + destruct (cars e) as [ps|] eqn:Ep; [|discriminate M]. destruct (cadrs e) as [vs|] eqn:Ev; [|discriminate M]. injection M as <-.
      pose proof (closures_cars ok e ps Ep Ce). pose proof (closures_cadrs ok e vs Ev Ce). cbn. tauto.
Qed.
Notation lib_compiles := (compiles_to lib_second lib_content lib_macro ex_spec 2).
Notation lib_means := (means lib_second lib_content lib_macro 2).
Ltac in_library := first [split; [reflexivity|eexists; split; [reflexivity|intros x; reflexivity]]|eexists; eexists; split; [reflexivity|split; [reflexivity|intros x; reflexivity]]|split; reflexivity|eexists; split; reflexivity].
(** (delay x): (promise #f (lambda () (promise #t x))) *)
Example C107_delay_ex : forall n, lib_compiles (flist [Sym n_delay; Sym x_]) n
  (CCall (CGlobal s_promise) [CConst (Atom 0); CLambda 0 false [CCall (CGlobal s_promise) [CConst (Atom 1); CGlobal x_] (CConst Nil)]] (CConst Nil)).
Proof.
  apply C107_compiled; [exact lib_setting|cbn; tauto|]. apply (C107_delay _ _ _ _ _ _ _ 1); try in_library. apply M_variable; reflexivity.
Qed.
(** (delay-force x): (promise #f (lambda () x)) *)
Example C107_delay_force_ex : forall n, lib_compiles (flist [Sym s_lazy; Sym x_]) n (CCall (CGlobal s_promise) [CConst (Atom 0); CLambda 0 false [CGlobal x_]] (CConst Nil)).
Proof.
  apply C107_compiled; [exact lib_setting|cbn; tauto|]. apply (C107_delay_force _ _ _ _ _ _ _ 1); try in_library. apply B_items, (I_cons _ _ _ _ _ _ _ _ [_] []); [|apply I_nil].
  apply I_expression; [exact Logic.I|]. apply M_variable; reflexivity.
Qed.
(** (parameterize ((p x)) y): (dynamic-bind (list p) (list x) (lambda () y)) *)
Example C107_parameterize_ex : forall n, lib_compiles (flist [Sym n_parameterize; flist [flist [Sym n_p; Sym x_]]; Sym y_]) n
  (CCall (CGlobal s_dynamic_bind) [CCall (CGlobal s_list) [CGlobal n_p] (CConst Nil); CCall (CGlobal s_list) [CGlobal x_] (CConst Nil); CLambda 0 false [CGlobal y_]] (CConst Nil)).
Proof.
  apply C107_compiled; [exact lib_setting|cbn; tauto|]. apply (C107_parameterize _ _ _ _ _ _ _ 1 _ _ [Sym n_p] [Sym x_]); try in_library.
  - apply A_cons; [apply M_variable; reflexivity|apply A_nil].
  - apply A_cons; [apply M_variable; reflexivity|apply A_nil].
  - apply B_items, (I_cons _ _ _ _ _ _ _ _ [_] []); [|apply I_nil]. apply I_expression; [exact Logic.I|]. apply M_variable; reflexivity.
Qed.
(** (let ((z x) (u 5)) z) and (let z ((u 5)) u) *)
Example C107_let_ex : forall n, lib_compiles (flist [Sym s_let; flist [flist [Sym z_; Sym x_]; flist [Sym u_; Atom 5]]; Sym z_]) n
  (CCall (CLambda 2 false [CLocal 0 0]) [CGlobal x_; CConst (Atom 5)] (CConst Nil)).
Proof.
  apply C107_compiled; [exact lib_setting|cbn; tauto|]. apply (C107_let _ _ _ _ _ _ _ 1 [Sym z_; Sym u_] [Sym x_; Atom 5] _ [_; _] [_]); try in_library.
  - split; [repeat constructor|cbn; auto].
  - intros _. repeat constructor; intros H; discriminate H.
  - apply A_cons; [apply M_variable; reflexivity|]. apply A_cons; [apply M_atom|apply A_nil].
  - apply B_items, (I_cons _ _ _ _ _ _ _ _ [_] []); [|apply I_nil]. apply I_expression; [exact Logic.I|]. apply M_variable; reflexivity.
Qed.
Example C107_named_let_ex : forall n, lib_compiles (flist [Sym s_let; Sym z_; flist [flist [Sym u_; Atom 5]]; Sym u_]) n
  (CLetrec [CLambda 1 false [CLocal 0 0]] [CCall (CLocal 0 0) [CConst (Atom 5)] (CConst Nil)]).
Proof.
  apply C107_compiled; [exact lib_setting|cbn; tauto|]. apply (C107_named_let_partial _ _ _ _ _ _ _ 1 (Sym z_) [Sym u_] [Atom 5] _ [_] [_]); try in_library.
  - split; [repeat constructor|cbn; auto].
  - intros _. repeat constructor; intros H; discriminate H.
  - apply A_cons; [apply M_atom|apply A_nil].
  - apply B_items, (I_cons _ _ _ _ _ _ _ _ [_] []); [|apply I_nil]. apply I_expression; [exact Logic.I|]. apply M_variable; reflexivity.
Qed.
(** (letrec* ((z 5) (u z)) u) *)
Example C107_letrec_star_ex : forall n, lib_compiles (flist [Sym n_letrec_star; flist [flist [Sym z_; Atom 5]; flist [Sym u_; Sym z_]]; Sym u_]) n
  (CCall (CLambda 0 false [CCall (CLambda 2 false [CSet (CLocal 0 0) (CConst (Atom 5)); CSet (CLocal 0 1) (CLocal 0 0); CLocal 0 1]) [CConst Nil; CConst Nil] (CConst Nil)]) [] (CConst Nil)).
Proof.
  apply C107_compiled; [exact lib_setting|cbn; tauto|].
  apply (C107_letrec_star_partial _ _ _ _ _ _ _ 1 1 [Sym z_; Sym u_] [Atom 5; Sym z_] _ [_; _] [_]); try in_library.
  - split; [repeat constructor|cbn; auto].
  - intros _. repeat constructor.
  - apply S_cons; [apply M_atom|]. apply S_cons; [apply M_variable; reflexivity|apply S_nil].
  - apply (I_cons _ _ _ _ _ _ _ _ [_] []); [|apply I_nil]. apply I_expression; [exact Logic.I|]. apply M_variable; reflexivity.
Qed.

(** ** The definitions of the body of letrec* are variables of the same scope as those of letrec* itself.
    (letrec* ((z y)) (define y 5) z): in R7RS the y of the init is the y outside of letrec*.  Here it is the y of the body,
    before its initialisation. *)
Definition ex_star : form := flist [Sym n_letrec_star; flist [flist [Sym z_; Sym y_]]; flist [Sym k_define; Sym y_; Atom 5]; Sym z_].
Definition ex_star_code : code := letrec_star_code [CGlobal y_] [CCall (CLambda 1 false [CSet (CLocal 0 0) (CConst (Atom 5)); CLocal 1 0]) [CConst Nil] (CConst Nil)].
Theorem C107_letrec_star_refuted :
  (* the init and the body of ex_star *)
  lib_means true (inner [Sym z_] []) (Sym y_) (CGlobal y_) /\
  body_means lib_second lib_content lib_macro 2 true (inner [Sym z_] []) (flist [flist [Sym k_define; Sym y_; Atom 5]; Sym z_])
    [CCall (CLambda 1 false [CSet (CLocal 0 0) (CConst (Atom 5)); CLocal 1 0]) [CConst Nil] (CConst Nil)] /\
  (* but *)
  lib_compiles ex_star 0 (CCall (CLambda 0 false [CCall (CLambda 2 false [CSet (CLocal 0 0) (CLocal 0 1); CSet (CLocal 0 1) (CConst (Atom 5)); CLocal 0 0]) [CConst Nil; CConst Nil] (CConst Nil)]) [] (CConst Nil)) /\
  ~ lib_compiles ex_star 0 ex_star_code.
Proof.
  split; [apply M_variable; reflexivity|]. split; [|split].
  - apply (B_definitions _ _ _ _ _ _ (flist [flist [Sym k_define; Sym y_; Atom 5]]) (flist [Sym y_]) (flist [Sym z_]) [_] [_]); [reflexivity| | | |].
    + apply D_variable; [split; reflexivity|reflexivity|apply M_atom|apply D_nil].
    + apply (I_cons _ _ _ _ _ _ _ _ [_] []); [|apply I_nil]. apply I_expression; [exact Logic.I|]. apply M_variable; reflexivity.
    + split; [repeat constructor|cbn; auto].
    + intros _. repeat constructor.
  - decide_compile.
  - intros (k & H).
    assert (E : lib_compiles ex_star 0 (CCall (CLambda 0 false [CCall (CLambda 2 false [CSet (CLocal 0 0) (CLocal 0 1); CSet (CLocal 0 1) (CConst (Atom 5)); CLocal 0 0]) [CConst Nil; CConst Nil] (CConst Nil)]) [] (CConst Nil))) by decide_compile.
    destruct E as (k' & H'). specialize (H (k + k') ltac:(lia)). specialize (H' (k + k') ltac:(lia)). rewrite H in H'. discriminate H'.
Qed.
Print Assumptions C107_letrec_star_refuted.
Theorem C107_letrec_star_whole_refuted : ~ C107_letrec_star_statement true.
Proof.
  intros S. destruct C107_letrec_star_refuted as (M & B & _ & N). apply N. revert N. intros _.
  apply (C107_compiled _ _ _ _ _ _ _ lib_setting); [cbn; tauto|].
  apply (S lib_second lib_content lib_macro 2 true [] (Sym n_letrec_star) 1 1 [Sym z_] [Sym y_] (flist [flist [Sym k_define; Sym y_; Atom 5]; Sym z_])); try in_library.
  - split; [repeat constructor|cbn; auto].
  - intros _. repeat constructor.
  - apply S_cons; [exact M|apply S_nil].
  - exact B.
Qed.
Print Assumptions C107_letrec_star_whole_refuted.
