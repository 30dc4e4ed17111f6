(** Finding files, include and the declarations of a library: C89-C93. *)
From Coq Require Import String ZArith List Bool Lia.
From Verif Require Import Number NumberText TextPort Writer CondExpand Include IncludeSpec IncludeProofs.
Import ListNotations.
Open Scope Z_scope.

(** A small file system: the current directory is /home, which has the files
    dir/a.ss, dir/b.ss and lib.sld *)
Definition demo_files : list (path * path * list datum) :=
  [(codes "dir/a.ss", codes "/home/dir/a.ss", [form "include" [Str (codes "b.ss")]]);
   (codes "/home/dir/a.ss", codes "/home/dir/a.ss", [form "include" [Str (codes "b.ss")]]);
   (codes "dir/b.ss", codes "/home/dir/b.ss", [Sym (codes "one"); Sym (codes "two")]);
   (codes "/home/dir/b.ss", codes "/home/dir/b.ss", [Sym (codes "one"); Sym (codes "two")]);
   (codes "lib.sld", codes "/home/lib.sld", [Sym (codes "three")]);
   (codes "/home/lib.sld", codes "/home/lib.sld", [Sym (codes "three")])].
Definition demo_find (p : path) : option (path * list datum) :=
  match find (fun x => same_path_text p (fst (fst x))) demo_files with Some (_, c, ds) => Some (c, ds) | None => None end.
Definition demo : files :=
  Files (fun p => match demo_find p with Some _ => true | None => false end)
        (fun p => match demo_find p with Some (c, _) => Some c | None => None end)
        (fun p => match demo_find p with Some _ => true | None => false end)
        (fun _ p => match demo_find p with Some (_, ds) => (ds, AtEof) | None => ([], Broken) end)
        (codes "/home") [].
(** An evaluator that writes down what it is given; car fails *)
Definition note (c : context) (x : datum) (st : state (list datum)) : state (list datum) * option failure :=
  (State (paths st) (world st ++ [x]), match x with Sym n => if same_name n (codes "car") then Some Failed else None | _ => None end).
Definition nothing : state (list datum) := State [] [].

(** ** C89: locate tries the name itself, then each directory, then each extension *)
Theorem C89_locate : forall (fs : files) (c : context) (given name d : path),
  ends_in given name -> directory_of c d ->
  (forall p, locate fs c given = Done p <-> found fs c given p) /\
  (locate fs c given = Fails NotLocated <-> nowhere fs c given) /\
  (forall why, locate fs c given = Fails why -> why <> NotLocated -> accept fs given = true /\ canonical fs given = None).
Proof.
  intros fs c given name d E D. pose proof (located_or_nowhere fs c given name d E D) as H.
  split; [intros p; split; [|apply locate_found]|split; [split; [|apply locate_nowhere]|]].
  - intros L. rewrite L in H. assumption.
  - intros L. rewrite L in H. assumption.
  - intros why L N. rewrite L in H. destruct why; try apply H; congruence.
Qed.
Print Assumptions C89_locate.
(** Every path with a file name is of the first kind, and a file found otherwise is
    accepted *)
Theorem C89_accepted : forall (fs : files) (c : context) (given p : path),
  locate fs c given = Done p -> accept fs p = true \/ canonical fs given = Some p.
Proof.
  intros fs c given p. unfold locate. destruct (accept fs given).
  - destruct (canonical fs given); [|discriminate]. intros H; inversion H; auto.
  - assert (T : forall es q r, try_extensions fs q es = Some r -> accept fs r = true).
    { induction es as [|e es IH]; simpl; intros q r; [discriminate|].
      destruct (accept fs (replace_extension q e)) eqn:A; [intros H; inversion H; subst; assumption|apply IH]. }
    destruct (try_each fs _ given) as [q|] eqn:F; [|discriminate]. intros H; inversion H; subst. left.
    revert F. generalize (source_directory c :: current_path fs :: directories fs). induction l as [|x l IH]; simpl; [discriminate|].
    destruct (try_in fs x given) as [r|] eqn:I; [|assumption]. intros F; inversion F; subst.
    unfold try_in in I. destruct (accept fs (join x given)) eqn:A; [inversion I; subst; assumption|].
    destruct (extension given); [eapply T; eassumption|discriminate].
Qed.
Print Assumptions C89_accepted.
Example C89_example :
  locate demo None (codes "lib") = Done (codes "lib.sld") /\
  locate demo None (codes "lib.sld") = Done (codes "/home/lib.sld") /\
  locate demo (Some (codes "/home/dir/a.ss")) (codes "lib") = Done (codes "/home/lib.sld") /\
  locate demo (Some (codes "/home/dir/a.ss")) (codes "b") = Done (codes "/home/dir/b.ss") /\
  locate demo None (codes "b.ss") = Fails NotLocated /\
  ends_in (codes "x/lib") (codes "lib") /\ bare (codes "lib") /\ ~ bare (codes "lib.sld").
Proof.
  split; [reflexivity|]. split; [reflexivity|]. split; [reflexivity|]. split; [reflexivity|]. split; [reflexivity|]. split.
  - split; [discriminate|]. split; [simpl; lia|]. right. exists (codes "x"). reflexivity.
  - split.
    + right. intros a b H. destruct a as [|x [|y [|z [|w a]]]]; simpl in H; inversion H.
    + intros [H|H]; [discriminate|]. discriminate (H (codes "lib") (codes "sld") eq_refl).
Qed.

(** ** C90: include at the outermost level *)
(** All data of all files, in the order of the names, are evaluated one after the other
    after all have been read *)
Theorem C90_include : forall (W : Type) (fs : files) perform (fuel : nat) (c : context) (ci : bool) (names : list (list Z))
  (fls : list path) (datas : list (list datum)) (st st' : state W) (e : option failure),
  Forall2 (fun s f => found fs c (flat_map utf8 s) f) names fls -> Forall2 (holds fs ci) fls datas ->
  exists ds ps, map snd ds = concat datas /\
  (evaluate fs perform (S fuel) (c, form (if ci then "include-ci" else "include") (map Str names)) st = (st', e)
   <-> in_order (evaluate fs perform fuel) ds (State ps (world st)) st' e).
Proof.
  intros W fs perform fuel c ci names fls datas st st' e F H.
  destruct (include_all fs ci c names fls datas (paths st) F H) as (ds & ps & I & M).
  exists ds, ps. split; [assumption|]. rewrite <- each_in_order.
  destruct ci; cbn [evaluate fst snd]; rewrite !form_of_form.
  - change (same_name (codes "include-ci") (codes "include")) with false.
    change (same_name (codes "include-ci") (codes "include-ci")) with true. cbv iota beta zeta. rewrite I. reflexivity.
  - change (same_name (codes "include") (codes "include")) with true. cbv iota beta zeta. rewrite I. reflexivity.
Qed.
Print Assumptions C90_include.
(** If a file is not found or cannot be read to its end, nothing is evaluated: not even
    the data of the files before it *)
Theorem C90_all_or_nothing : forall (W : Type) (fs : files) perform (fuel : nat) (c : context) (ci : bool)
  (before after : list (list Z)) (name : list Z) (st : state W),
  (nowhere fs c (flat_map utf8 name) \/
   (exists f ds, found fs c (flat_map utf8 name) f /\ (canonical fs f = None \/ opens fs f = false \/ reads fs ci f = (ds, Broken)))) ->
  exists ps why, evaluate fs perform (S fuel) (c, form (if ci then "include-ci" else "include") (map Str (before ++ name :: after))) st
                 = (State ps (world st), Some why).
Proof.
  intros W fs perform fuel c ci before after name st B.
  assert (I : forall xs ps, exists why qs, include fs ci c (list_datum (map Str (before ++ name :: after))) xs ps = (Fails why, qs)).
  { induction before as [|s before IH]; intros xs ps.
    - cbn [app map list_datum include].
      destruct B as [B|(f & ds & B & B')]; [rewrite (locate_nowhere _ _ _ B); eauto|].
      rewrite (locate_found _ _ _ _ B). unfold open_port. destruct B' as [->|[O|R]]; [eauto| |];
        (destruct (canonical fs f); [|eauto]); unfold read_all; [rewrite O; eauto|]. rewrite R. destruct (opens fs f); eauto.
    - cbn [app map list_datum include]. destruct (locate fs c (flat_map utf8 s)) as [p|]; [|eauto].
      destruct (open_port fs p ps) as [[[c' p'] ps']|]; [|eauto]. destruct (read_all fs ci p'); [|eauto]. apply IH. }
  destruct (I [] (paths st)) as (why & qs & E). exists qs, why.
  destruct ci; cbn [evaluate fst snd]; rewrite !form_of_form.
  - change (same_name (codes "include-ci") (codes "include")) with false.
    change (same_name (codes "include-ci") (codes "include-ci")) with true. cbv iota beta zeta. rewrite E. reflexivity.
  - change (same_name (codes "include") (codes "include")) with true. cbv iota beta zeta. rewrite E. reflexivity.
Qed.
Print Assumptions C90_all_or_nothing.
Example C90_example :
  evaluate demo note 2 (None, form "include" [Str (codes "dir/b"); Str (codes "lib")]) nothing
  = (State [codes "dir/b.ss"; codes "lib.sld"] [Sym (codes "one"); Sym (codes "two"); Sym (codes "three")], None) /\
  snd (evaluate demo note 2 (None, form "include" [Str (codes "lib"); Str (codes "no")]) nothing) = Some NotLocated /\
  world (fst (evaluate demo note 2 (None, form "include" [Str (codes "lib"); Str (codes "no")]) nothing)) = [].
Proof. split; [reflexivity|]. split; reflexivity. Qed.

(** ** C91: a file included is looked for beside the file that includes it *)
(** The source file of what a port reads is known exactly if the file has once been
    opened by its canonical path *)
Theorem C91_source_partial : forall (fs : files) (p : path) (segments : list path) (paths : list path),
  canonical fs p = Some (spelt segments) -> Forall component segments -> segments <> [] -> Forall tidy (p :: paths) ->
  exists paths',
    ((In (spelt segments) (p :: paths) /\ open_port fs p paths = Done (Some (spelt segments), p, paths')) \/
     (~ In (spelt segments) (p :: paths) /\ open_port fs p paths = Done (None, p, paths'))) /\
    (forall q, In q paths -> In q paths') /\ (forall q, In q paths' -> q = p \/ In q paths).
Proof.
  intros fs p segments paths C F N T. unfold open_port. rewrite C. exists (emplace_path p paths).
  inversion T as [|? ? Tp Tr]; subst.
  assert (E : (forall q, In q paths -> In q (emplace_path p paths)) /\ (forall q, In q (emplace_path p paths) -> q = p \/ In q paths)).
  { unfold emplace_path. destruct (existsb (same_path p) paths); split; intros q H; auto.
    - apply in_or_app; auto.
    - apply in_app_or in H. destruct H as [H|[H|[]]]; auto. }
  split; [|assumption]. destruct E as [E1 E2].
  assert (T' : Forall tidy (emplace_path p paths)).
  { apply Forall_forall. intros q Hq. destruct (E2 q Hq) as [->|Hq']; [assumption|]. rewrite Forall_forall in Tr. auto. }
  destruct (find_path_tidy segments _ F N T') as [Y Z].
  destruct (in_dec (list_eq_dec Z.eq_dec) (spelt segments) (emplace_path p paths)) as [I|I].
  - left. rewrite (Y I). split; [|reflexivity]. simpl. destruct (E2 _ I) as [->|]; auto.
  - right. rewrite (Z I). split; [|reflexivity]. intros [H|H]; [|auto]. apply I. subst p. clear E2 Y Z T'.
    unfold emplace_path. destruct (existsb (same_path (spelt segments)) paths) eqn:X; [|apply in_or_app; right; left; reflexivity].
    apply existsb_exists in X. destruct X as (q & Hq & S). rewrite Forall_forall in Tr.
    apply (same_path_tidy q segments F N (Tr q Hq)) in S. rewrite S. assumption.
Qed.
Print Assumptions C91_source_partial.
(** Then a relative name without a file of its own is found in the directory of the source *)
Theorem C91_sibling_partial : forall (fs : files) (segments : list path) (name given : path) (last : path),
  Forall component segments -> segments <> [] -> component name -> ends_in given last -> ~ absolute given ->
  accept fs given = false -> accept fs (spelt segments ++ 47 :: given) = true ->
  locate fs (Some (spelt (segments ++ [name]))) given = Done (spelt segments ++ 47 :: given).
Proof.
  intros fs segments name given last F N C E A X Y. apply locate_found. right. split; [assumption|].
  destruct (suffixes_exist last) as [sfx S].
  exists last, (spelt segments), sfx. eexists. split; [exact E|]. split.
  { exists segments, name. split; [assumption|]. split; [assumption|]. split; [reflexivity|]. destruct segments; [congruence|reflexivity]. }
  split; [exact S|]. split; [apply places_exist|].
  assert (J : join (spelt segments) given = spelt segments ++ 47 :: given).
  { symmetry. apply seen_unique. right. split; [assumption|]. right; right.
    destruct (exists_last N) as (l & t & ->). apply Forall_app in F. destruct F as [_ F]. inversion F as [|? ? [T0 T1] _]; subst.
    destruct (exists_last T0) as (t' & z & ->). exists (spelt l ++ 47 :: t'), z. split; [|split; [|reflexivity]].
    - unfold spelt. rewrite flat_map_app. simpl. rewrite app_nil_r, <- app_assoc. reflexivity.
    - intros ->. apply T1. apply in_or_app; right; left; reflexivity. }
  exists []. destruct S as [[_ ->]|[_ ->]]; simpl; rewrite J, app_nil_r; eexists; (split; [reflexivity|]); auto.
Qed.
Print Assumptions C91_sibling_partial.
(** In general it is not: (load "dir/a.ss") of a file that includes its neighbour "b.ss" *)
Theorem C91_sibling_refuted : ~ forall (fs : files) (p given : path) (segments : list path) (name : path),
  Forall component (segments ++ [name]) -> canonical fs p = Some (spelt (segments ++ [name])) ->
  accept fs p = true -> reads fs false p = ([form "include" [Str given]], AtEof) ->
  accept fs (spelt segments ++ 47 :: given) = true ->
  (forall q, accept fs q = true -> exists ds, holds fs false q ds) ->
  snd (load fs note 3 p nothing) <> Some NotLocated.
Proof.
  intros H. refine (H demo (codes "dir/a.ss") (codes "b.ss") [codes "home"; codes "dir"] (codes "a.ss") _ _ _ _ _ _ _); try reflexivity.
  - repeat constructor; try discriminate; simpl; lia.
  - intros q A. simpl in A. unfold holds. simpl. destruct (demo_find q) as [[n ds]|]; [|discriminate]. eauto.
Qed.
Print Assumptions C91_sibling_refuted.
(** The same file given by its canonical path, and by the other one a second time *)
Example C91_example :
  snd (load demo note 3 (codes "dir/a.ss") nothing) = Some NotLocated /\
  load demo note 3 (codes "/home/dir/a.ss") nothing
  = (State [codes "/home/dir/a.ss"; codes "/home/dir/b.ss"] [Sym (codes "one"); Sym (codes "two")], None) /\
  snd (load demo note 3 (codes "dir/a.ss") (fst (load demo note 3 (codes "/home/dir/a.ss") nothing))) = None.
Proof. split; [reflexivity|]. split; reflexivity. Qed.

(** ** C92: include inside a body *)
(** Full statement: (include <string> ...) in a body stands for the data of the files, as
    it does at the outermost level.  False: the expander looks at the first string
    instead of the list, and nothing is included. *)
Theorem C92_body_refuted : ~ forall (fs : files) (c : context) (names : list (list Z)) (fls : list path)
  (datas : list (list datum)) (paths : list path),
  Forall2 (fun s f => found fs c (flat_map utf8 s) f) names fls -> Forall2 (holds fs false) fls datas -> names <> [] ->
  exists ds ps, expand_include fs false c (form "include" (map Str names)) paths = (Done ds, ps) /\ map snd ds = concat datas.
Proof.
  intros H. destruct (H demo None [codes "lib.sld"] [codes "/home/lib.sld"] [[Sym (codes "three")]] []) as (ds & ps & E & M).
  - constructor; [|constructor]. left. split; reflexivity.
  - constructor; [|constructor]. split; [eexists; reflexivity|]. split; reflexivity.
  - discriminate.
  - cbn in E. inversion E; subst. discriminate.
Qed.
Print Assumptions C92_body_refuted.
(** Whatever the files are, and whether they exist or not, the form is an empty begin *)
Theorem C92_body_empty : forall (fs : files) (ci : bool) (c : context) (keyword : datum) (name : list Z) (rest : datum) (paths : list path),
  expand_include fs ci c (Pair keyword (Pair (Str name) rest)) paths = (Done [], paths).
Proof. reflexivity. Qed.
Print Assumptions C92_body_empty.
(** What it does include: the files of a list of strings in the place of the first string *)
Theorem C92_body_partial : forall (fs : files) (ci : bool) (c : context) (keyword rest : datum) (names : list (list Z)) (fls : list path)
  (datas : list (list datum)) (paths : list path),
  Forall2 (fun s f => found fs c (flat_map utf8 s) f) names fls -> Forall2 (holds fs ci) fls datas ->
  exists ds ps, expand_include fs ci c (Pair keyword (Pair (list_datum (map Str names)) rest)) paths = (Done ds, ps) /\ map snd ds = concat datas.
Proof. intros. simpl. eapply include_all; eassumption. Qed.
Print Assumptions C92_body_partial.
Example C92_example :
  expand_include demo false None (form "include" [Str (codes "lib")]) [] = (Done [], []) /\
  fst (expand_include demo false None (form "include" [form "lib" []]) []) = Fails BadName /\
  map snd (match fst (expand_include demo false None (Pair (Sym (codes "include")) (Pair (list_datum [Str (codes "lib")]) Nil)) []) with Done ds => ds | _ => [] end)
  = [Sym (codes "three")].
Proof. split; [reflexivity|]. split; reflexivity. Qed.

(** ** C93: the declarations of a library *)
(** The declarations of a library are evaluated in order at the first import; the list of
    export specs has those of later declarations first *)
Theorem C93_declarations : forall (W : Type) (fs : files) perform clauses (fuel : nat) (c : context) (ds : list declaration)
  (st st' : state W) (e : option failure),
  Forall well_formed ds ->
  in_order (evaluate fs perform fuel) (map (pair c) (flat_map run_by ds)) st st' e ->
  exists specs, import_library fs perform clauses (S fuel) (Library (map (fun d => (c, written d)) ds) []) st = (Library [] specs, st', e) /\
  (e = None -> specs = concat (rev (map specs_of ds))) /\
  (exists done later, ds = done ++ later /\ specs = concat (rev (map specs_of done))).
Proof.
  intros W fs perform clauses fuel c ds st st' e F O. apply each_in_order in O.
  destruct (flat fs perform clauses fuel c ds [] st F) as (done & [later E] & H). rewrite O in H. destruct H as [H1 H2].
  exists (concat (rev (map specs_of done))). unfold import_library. cbn [declarations export_specs]. rewrite H1, app_nil_r.
  split; [reflexivity|]. split; [intros X; rewrite (H2 X); reflexivity|]. exists done, later. auto.
Qed.
Print Assumptions C93_declarations.
(** include-library-declarations and cond-expand stand for the declarations they bring *)
Theorem C93_include_declarations : forall (W : Type) (fs : files) perform clauses (fuel : nat) (c : context) (names : list (list Z))
  (fls : list path) (datas : list (list datum)) (rest : list (context * datum)) (specs : list datum) (st : state W),
  Forall2 (fun s f => found fs c (flat_map utf8 s) f) names fls -> Forall2 (holds fs false) fls datas ->
  exists ds ps, map snd ds = concat datas /\
  forall l st' e, import_library fs perform clauses fuel (Library (ds ++ rest) specs) (State ps (world st)) = (l, st', e) -> e <> Some Fuel ->
  import_library fs perform clauses (S fuel) (Library ((c, form "include-library-declarations" (map Str names)) :: rest) specs) st = (l, st', e).
Proof.
  intros W fs perform clauses fuel c names fls datas rest specs st F H.
  destruct (include_all fs false c names fls datas (paths st) F H) as (ds & ps & I & M).
  exists ds, ps. split; [assumption|]. intros l st' e R N. unfold import_library in *. cbn [declarations export_specs] in *.
  rewrite (splice fs perform clauses fuel c _ ds rest specs st (State ps (world st))); [assumption| |].
  - rewrite declare_S. cbn [fst snd]. rewrite !form_of_form.
    change (same_name (codes "include-library-declarations") (codes "export")) with false.
    change (same_name (codes "include-library-declarations") (codes "begin")) with false.
    change (same_name (codes "include-library-declarations") (codes "include-library-declarations")) with true.
    cbv iota. rewrite I. reflexivity.
  - unfold fuel_left. destruct (each_declaration _ (ds ++ rest) specs (State ps (world st))) as [[x y] z]. inversion R; subst. assumption.
Qed.
Print Assumptions C93_include_declarations.
Theorem C93_conditional : forall (W : Type) (fs : files) perform clauses (fuel : nat) (c : context) (cs : datum) (body : list datum)
  (rest : list (context * datum)) (specs : list datum) (st : state W) l st' e,
  clauses st cs = Ok (list_datum body) ->
  import_library fs perform clauses fuel (Library (map (pair c) body ++ rest) specs) st = (l, st', e) -> e <> Some Fuel ->
  import_library fs perform clauses (S fuel) (Library ((c, Pair (Sym (codes "cond-expand")) cs) :: rest) specs) st = (l, st', e).
Proof.
  intros W fs perform clauses fuel c cs body rest specs st l st' e C R N. unfold import_library in *. cbn [declarations export_specs] in *.
  rewrite (splice fs perform clauses fuel c _ (map (pair c) body) rest specs st st); [assumption| |].
  - rewrite declare_S. cbn [fst snd form_of].
    change (same_name (codes "cond-expand") (codes "export")) with false.
    change (same_name (codes "cond-expand") (codes "begin")) with false.
    change (same_name (codes "cond-expand") (codes "include-library-declarations")) with false.
    change (same_name (codes "cond-expand") (codes "cond-expand")) with true.
    cbv iota. rewrite C, elements_list. reflexivity.
  - unfold fuel_left. destruct (each_declaration _ (map (pair c) body ++ rest) specs st) as [[x y] z]. inversion R; subst. assumption.
Qed.
Print Assumptions C93_conditional.
(** Once only: every later import evaluates nothing and finds the same export specs *)
Theorem C93_once : forall (W : Type) (fs : files) perform clauses (fuel : nat) (l l' : library) (st st' : state W) (e : option failure),
  import_library fs perform clauses fuel l st = (l', st', e) ->
  forall fuel' st2, import_library fs perform clauses fuel' l' st2 = (l', st2, None).
Proof.
  intros W fs perform clauses fuel l l' st st' e H fuel' st2. unfold import_library in H.
  destruct (each_declaration _ (declarations l) (export_specs l) st) as [[specs st1] e1]. inversion H; subst. reflexivity.
Qed.
Print Assumptions C93_once.
(** Full statement: a library whose declarations failed is not imported.  False: the second
    import takes it for loaded, with what was exported before the failure. *)
Theorem C93_failed_refuted : ~ forall (W : Type) (fs : files) perform clauses (fuel : nat) (l l' : library) (st st' : state W) (why : failure),
  import_library fs perform clauses fuel l st = (l', st', Some why) ->
  exists st2 why', import_library fs perform clauses fuel l' st' = (l', st2, Some why').
Proof.
  intros H.
  destruct (H _ demo note (fun _ _ => Raise) 3%nat
              (Library [(None, form "export" [Sym (codes "f")]); (None, form "begin" [Sym (codes "car")])] [])
              (Library [] [Sym (codes "f")]) nothing _ Failed eq_refl) as (st2 & why' & E).
  cbn in E. discriminate.
Qed.
Print Assumptions C93_failed_refuted.
Example C93_example :
  import_library demo note (fun _ _ => Raise) 3
    (Library [(None, form "export" [Sym (codes "f"); Sym (codes "g")]); (None, form "begin" [Sym (codes "one"); Sym (codes "two")]);
              (None, form "include-library-declarations" [Str (codes "lib")]);
              (None, form "export" [Sym (codes "h")])] []) nothing
  = (Library [] [Sym (codes "h"); Sym (codes "f"); Sym (codes "g")],
     State [codes "lib.sld"] [Sym (codes "one"); Sym (codes "two"); Sym (codes "three")], None) /\
  well_formed (Other (form "include" [Str (codes "lib")])).
Proof. split; [reflexivity|]. intros rest. repeat split; discriminate. Qed.
