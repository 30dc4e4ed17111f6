(** Property theorems about the command line (C75) and the layout of the help text (C76). *)
From Coq Require Import String ZArith List Bool Lia.
From Verif Require Import NumberText TextPort Writer Reader Configuration CommandLineSpec CommandLineProofs.
Import ListNotations.
Open Scope Z_scope.

(** ** C75 *)
(** For every sequence of requests, spelled on the command line in any of the documented
    ways, exactly the requested actions are performed, in this order, up to the first that
    raises an error or ends the program. Partial: spellings --name=value with an empty
    value or a value of several lines are left out, see the refutations below. *)
Theorem C75_requests_partial : forall W perform reads external program requests arguments (w : W),
  command_line requests arguments ->
  configure perform reads external (program :: arguments) w = all perform reads external requests w.
Proof.
  intros W perform reads external pr rs ws w C. cbn [configure].
  destruct (loop_ok perform reads external _ _ C [] (length ws) w) as (f & _ & E); [rewrite app_nil_r; lia|]. rewrite app_nil_r in E. rewrite E.
  destruct (all perform reads external rs w) as [[[]| |n| |] w']; try reflexivity. destruct f; reflexivity.
Qed.
Print Assumptions C75_requests_partial.

(** What looks like an option but is none raises an error, after what comes before it has
    been performed; nothing that comes after it is performed *)
Theorem C75_unknown : forall W perform reads external program requests arguments a more (w w' : W),
  command_line requests arguments -> all perform reads external requests w = (Normal tt, w') -> unknown_option a ->
  configure perform reads external (program :: arguments ++ a :: more) w = (Raised, w').
Proof.
  intros W perform reads external pr rs ws a more w w' C A U. cbn [configure].
  destruct (loop_ok perform reads external _ _ C (a :: more) (length (ws ++ a :: more)) w) as (f & Lf & E); [lia|]. rewrite E, A.
  destruct f as [|f]; [cbn [length] in Lf; lia|]. cbn [loop]. rewrite (unknown_ok _ _ _ _ U). reflexivity.
Qed.
Print Assumptions C75_unknown.

(** A missing operand raises an error *)
Theorem C75_missing : forall W perform reads external program requests arguments k a (w w' : W),
  command_line requests arguments -> all perform reads external requests w = (Normal tt, w') -> takes_operand k = true ->
  a = codes "--" ++ long_name k \/ (exists c, short_name k = Some c /\ a = [45; c]) ->
  configure perform reads external (program :: arguments ++ [a]) w = (Raised, w').
Proof.
  intros W perform reads external pr rs ws k a w w' C A T Ha. cbn [configure].
  destruct (loop_ok perform reads external _ _ C [a] (length (ws ++ [a])) w) as (f & Lf & E); [lia|]. rewrite E, A.
  destruct f as [|f]; [cbn [length] in Lf; lia|]. cbn [loop]. destruct Ha as [->|(c & Hc & ->)].
  - destruct k; try discriminate T; reflexivity.
  - destruct k; try discriminate T; inversion Hc; subst c; reflexivity.
Qed.
Print Assumptions C75_missing.

(** The status of the process: 0 if all requests are done, 1 after an error, and the number
    given to emergency-exit *)
Theorem C75_status : forall W perform reads external session program requests arguments (w : W),
  command_line requests arguments ->
  forall o w', all perform reads external requests w = (o, w') ->
  main perform reads external (fun _ => false) session (program :: arguments) w =
    (match o with Normal _ => Status 0 | Raised => Status 1 | Exited n => Status n | Uncaught => Terminated | Unknown => Unmodelled end, w').
Proof.
  intros W perform reads external se pr rs ws w C o w' E. unfold main. rewrite (C75_requests_partial _ _ _ _ _ _ _ _ C), E. destruct o; reflexivity.
Qed.
Print Assumptions C75_status.

(** A world that records the actions; the reader of Reader.v *)
Definition record (a : action) (w : list action) : outcome unit * list action := (Normal tt, w ++ [a]).
Definition path_of (d : datum) : list Z := match write (fun _ => []) d with Some s => s | None => [] end.
Definition run (arguments : list string) : outcome unit * list action := configure record read_text path_of (map codes arguments) [].
Local Open Scope string_scope.
Example C75_ex :
  command_line [Use Help None; Use Evaluate (Some (codes "(f 1)")); Use Write (Some (codes "x")); Run (codes "a.ss"); Use Interactive None; Use Color (Some (codes "#f"))]
    (map codes ["-he"; "(f 1)"; "--write=x"; "a.ss"; "--interactive"; "--color"; "#f"]) /\
  run ["meevax"; "-he"; "(f 1)"; "--write=x"; "a.ss"; "--interactive"; "--color"; "#f"] =
    (Normal tt, [Print_help; Evaluate_datum (Pair (Sym (codes "f")) (Pair (Num (Number.Small 1)) Nil)); Write_datum (Sym (codes "x")); Load_file (codes "a.ss"); Become_interactive; Set_color false]).
Proof.
  split; [|vm_compute; reflexivity].
  apply (one_more [Use Help None; Use Evaluate (Some (codes "(f 1)"))] (map codes ["-he"; "(f 1)"])).
  { apply (short_options [(Help, None); (Evaluate, Some (codes "(f 1)"))] (codes "he")); [discriminate|repeat constructor|repeat constructor]. }
  apply (one_more [Use Write (Some (codes "x"))] (map codes ["--write=x"])).
  { apply long_option_equals; [reflexivity|discriminate|]. intros c [<-|[]]. split; discriminate. }
  apply (one_more [Run (codes "a.ss")] (map codes ["a.ss"])); [apply file_name; discriminate|].
  apply (one_more [Use Interactive None] (map codes ["--interactive"])); [apply (long_option Interactive None); reflexivity|].
  apply (one_more [Use Color (Some (codes "#f"))] (map codes ["--color"; "#f"])); [apply (long_option Color (Some (codes "#f"))); reflexivity|]. constructor.
Qed.
Example C75_ex_unknown : run ["meevax"; "-h"; "--hepl"; "a.ss"] = (Raised, [Print_help]) /\ run ["meevax"; "-hx"; "a.ss"] = (Raised, [Print_help]) /\ run ["meevax"; "-e"] = (Raised, []).
Proof. repeat split; vm_compute; reflexivity. Qed.

(** The help text says of --help and of --version: display ... and exit. They do not exit. *)
Theorem C75_exit_refuted :
  run ["meevax"; "--help"; "a.ss"] = (Normal tt, [Print_help; Load_file (codes "a.ss")]) /\
  run ["meevax"; "-v"; "a.ss"] = (Normal tt, [Print_version; Load_file (codes "a.ss")]).
Proof. split; vm_compute; reflexivity. Qed.
Print Assumptions C75_exit_refuted.
(** --name=value with a newline in the value is taken for the name of a file, and with an
    empty value it takes the next argument *)
Theorem C75_equals_refuted :
  (configure record read_text path_of [codes "meevax"; codes "--write=(a" ++ [10] ++ codes "b)"] [] = (Normal tt, [Load_file (codes "--write=(a" ++ [10] ++ codes "b)")]))%list /\
  run ["meevax"; "--load="; "a.ss"] = (Normal tt, [Load_interaction (codes "a.ss")]).
Proof. split; vm_compute; reflexivity. Qed.
Print Assumptions C75_equals_refuted.
(** The operand <directory> or <file> is read as a datum and written: the current directory
    ends the program with an exception that main does not catch, of a name with a space the
    first word is taken, and quotation marks become part of the name *)
Theorem C75_path_refuted :
  (forall W perform external session b (w : W), main perform read_text external b session (map codes ["meevax"; "-I"; "."]) w = (Terminated, w)) /\
  run ["meevax"; "-I"; "my lib"] = (Normal tt, [Prepend_directory (codes "my")]) /\
  run ["meevax"; "-I"; """my lib"""] = (Normal tt, [Prepend_directory (codes """my lib""")]) /\
  run ["meevax"; "-l"; "a;b.ss"] = (Normal tt, [Load_interaction (codes "a")]).
Proof. repeat split; intros; vm_compute; reflexivity. Qed.
Print Assumptions C75_path_refuted.

Local Close Scope string_scope.

(** ** C76 *)
(** format lays out the words of its text, in order and complete, in lines that begin with
    the indent; a line is wider than the limit only if it is a single word, and a word
    begins a new line only if it does not fit into the line before it *)
Theorem C76_format : forall text indent limit, exists ws ls,
  in_words text ws /\ concat ls = ws /\ format text indent limit = paragraph indent ls /\ lines_fit indent limit ls.
Proof.
  intros text indent limit. pose proof (words_ok text) as Hw. exists (words text). unfold format. remember (words text) as ws eqn:E. clear E.
  pose proof (in_words_nonempty _ _ Hw) as F. destruct F as [|x ws Hx F]; cbn [format_words].
  - exists []. split; [exact Hw|]. repeat split.
  - replace (size indent <? size indent) with false by (symmetry; apply Z.ltb_irrefl).
    destruct (format_words_ok indent limit ws F [x] indent) as (ls & R & C & H & Fi & _).
    + discriminate.
    + cbn [line]. unfold size. destruct x; [contradiction|]. cbn [length]. lia.
    + exists ls. split; [exact Hw|]. split; [exact C|]. cbn [line] in R. rewrite R. split; [|apply Fi; left; reflexivity].
      destruct ls as [|l ls]; [contradiction|]. cbn [hd tl paragraph]. destruct ls; [rewrite app_nil_r; reflexivity|reflexivity].
Qed.
Print Assumptions C76_format.
Example C76_ex : format (codes "Load <file>  into the environment.") (codes "  ") 14 = codes "  Load <file>" ++ [10] ++ codes "  into the" ++ [10] ++ codes "  environment.".
Proof. vm_compute. reflexivity. Qed.
