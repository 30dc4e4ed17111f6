(** Model of the command line: src/kernel/configuration.cpp and main, src/main.cpp:23-92.

    Simplifications.
    - Strings are lists of bytes. std::regex is modelled by a backtracking matcher on the
      patterns that occur, with classes of characters of the locale "C"; the stack
      overflow of std::regex on long subjects is not modelled.
    - What an option does after its operand has been read (evaluating a datum, loading a
      file, printing the help text ...) is a parameter, [perform], on an arbitrary type of
      worlds; it may raise an error, end the program, or succeed. The interactive session
      of main is a parameter too.
    - Reading an operand is the parameter [reads] (textual_input_port::read on an
      input_string_port, see Reader.v), writing a datum the parameter [external]. *)
From Coq Require Import String ZArith List Bool Lia.
From Verif Require Import NumberText Writer Reader.
Import ListNotations.
Open Scope Z_scope.

(** ** Regular expressions *)
(** The ECMAScript constructs used by configuration.cpp:46,257: a character class, a
    sequence, an alternative, the greedy repetition of a class, a group that is captured *)
Inductive regex :=
| Class (p : Z -> bool)
| Nothing
| Seq (r1 r2 : regex)
| Alt (r1 r2 : regex)
| Many (p : Z -> bool)
| Group (n : nat) (r : regex).

Definition captures := nat -> list Z.
Definition none : captures := fun _ => [].
Definition capture (n : nat) (s : list Z) (c : captures) : captures := fun i => if Nat.eqb i n then s else c i.

(** p*, greedy: std::regex tries the longest repetition first (configuration.cpp:257) *)
Fixpoint many {A} (p : Z -> bool) (s : list Z) (k : list Z -> option A) : option A :=
  match s with
  | [] => k []
  | c :: s' => if p c then match many p s' k with Some a => Some a | None => k s end else k s
  end.

(** The matcher with the rest of the match as a continuation (configuration.cpp:243,259) *)
Fixpoint matcher (r : regex) (s : list Z) (c : captures) (k : list Z -> captures -> option captures) : option captures :=
  match r with
  | Class p => match s with x :: s => if p x then k s c else None | [] => None end
  | Nothing => k s c
  | Seq r1 r2 => matcher r1 s c (fun s c => matcher r2 s c k)
  | Alt r1 r2 => match matcher r1 s c k with Some m => Some m | None => matcher r2 s c k end
  | Many p => many p s (fun s => k s c)
  | Group n r => matcher r s c (fun s' c => k s' (capture n (firstn (length s - length s') s) c))
  end.
(** std::regex_match: the whole subject matches (configuration.cpp:243,259) *)
Definition regex_match (r : regex) (s : list Z) : option captures :=
  matcher r s none (fun s c => match s with [] => Some c | _ => None end).

(** \w, [-\w] and . (which stands for neither a newline nor a return), configuration.cpp:257 *)
Definition word_char (c : Z) : bool :=
  ((48 <=? c) && (c <=? 57)) || ((65 <=? c) && (c <=? 90)) || ((97 <=? c) && (c <=? 122)) || (c =? 95).
Definition word_or_hyphen (c : Z) : bool := (c =? 45) || word_char c.
Definition dot (c : Z) : bool := negb ((c =? 10) || (c =? 13)).
Definition some (p : Z -> bool) : regex := Seq (Class p) (Many p).
Fixpoint literally (s : list Z) : regex :=
  match s with [] => Nothing | c :: s => Seq (Class (Z.eqb c)) (literally s) end.

(** --(\w[-\w]+)(?:=(.STAR))?|-([\w]+) where STAR is the asterisk, configuration.cpp:257 *)
Definition pattern : regex :=
  Alt (Seq (literally (codes "--"))
        (Seq (Group 1 (Seq (Class word_char) (some word_or_hyphen)))
             (Alt (Seq (literally (codes "=")) (Group 2 (Many dot))) Nothing)))
      (Seq (literally (codes "-")) (Group 3 (some word_char))).

(** ** The options *)
(** The functions of the options, configuration.cpp:90-213 *)
Inductive option_kind :=
| Append_library_directory | Add_feature_identifier | Prepend_library_directory | Color | Evaluate | Help | Interactive
| Load | Library_directories | Version | Write.

(** struct option: c, s and the function, configuration.cpp:27-51 *)
Record command_option := { letter : option Z; long : list Z; kind : option_kind }.

(** option::pattern, configuration.cpp:46 *)
Definition option_pattern (o : command_option) : regex :=
  match letter o with
  | None => literally (long o)
  | Some c => Group 1 (Alt (literally [c]) (literally (long o)))
  end.

Definition an_option (c : string) (s : string) (k : option_kind) : command_option :=
  {| letter := hd_error (codes c); long := codes s; kind := k |}.

(** options, configuration.cpp:86-217 *)
Definition options : list command_option :=
  [ an_option "A" "append-library-directory" Append_library_directory
  ; an_option "D" "add-feature-identifier" Add_feature_identifier
  ; an_option "I" "prepend-library-directory" Prepend_library_directory
  ; an_option "" "color" Color
  ; an_option "e" "evaluate" Evaluate
  ; an_option "h" "help" Help
  ; an_option "i" "interactive" Interactive
  ; an_option "l" "load" Load
  ; an_option "" "library-directories" Library_directories
  ; an_option "v" "version" Version
  ; an_option "w" "write" Write ].

(** The lambda evaluator, configuration.cpp:239-253; none: an error is thrown *)
Definition evaluator (name : list Z) : option option_kind :=
  option_map kind (find (fun o => match regex_match (option_pattern o) name with Some _ => true | None => false end) options).

(** What the program is made to do *)
Inductive action :=
| Append_directory (path : list Z)
| Prepend_directory (path : list Z)
| Add_feature (d : datum)
| Set_color (b : bool)
| Evaluate_datum (d : datum)      (* in the interaction environment *)
| Print_help
| Become_interactive
| Load_interaction (path : list Z)(* into the interaction environment *)
| Print_directories
| Print_version
| Write_datum (d : datum)
| Load_file (path : list Z).      (* into a new environment *)

(** How a computation ends: with a value, with an error (a meevax error or any other
    std::exception), by emergency-exit (an int is thrown), with an exception that main
    does not catch, or with something that the model does not cover *)
Inductive outcome (A : Type) := Normal (a : A) | Raised | Exited (status : Z) | Uncaught | Unknown.
Arguments Normal {A} a.
Arguments Raised {A}.
Arguments Exited {A} status.
Arguments Uncaught {A}.
Arguments Unknown {A}.

Section Configure.
  Context {W : Type}.
  Variable perform : action -> W -> outcome unit * W.
  Variable reads : list Z -> reading.
  Variable external : datum -> list Z.
  (* the rest of the arguments is what std::next(iter) ... args.end() stands for *)
  Definition args := list (list Z).

  (** input_string_port(s).read(), configuration.cpp:265,285. The exceptions for a closing
      parenthesis and for a point are no std::exception (textual_input_port.cpp:572,604) *)
  Definition read_operand (s : list Z) : outcome datum :=
    match reads s with
    | Datum d => Normal d
    | Failed => Raised
    | Close | Dot => Uncaught
    | _ => Unknown
    end.

  (** The lambda read, configuration.cpp:261-272 *)
  Definition read_next (rest : args) : outcome datum * args :=
    match rest with
    | a :: rest => (read_operand a, rest)
    | [] => (Raised, [])
    end.
  (** The lambda that reads what follows =, configuration.cpp:283-286 *)
  Definition read_value (v : list Z) (rest : args) : outcome datum * args := (read_operand v, rest).

  Definition halt {A B} (o : outcome A) : outcome B :=
    match o with Normal _ => Unknown | Raised => Raised | Exited n => Exited n | Uncaught => Uncaught | Unknown => Unknown end.
  Definition act (a : action) (rest : args) (w : W) : outcome args * W :=
    match perform a w with
    | (Normal _, w) => (Normal rest, w)
    | (o, w) => (halt o, w)
    end.
  Definition with_datum (r : outcome datum * args) (w : W) (f : datum -> args -> outcome args * W) : outcome args * W :=
    match r with
    | (Normal d, rest) => f d rest
    | (o, _) => (halt o, w)
    end.

  (** The functions of the options, configuration.cpp:90-213 *)
  Definition evaluate (k : option_kind) (read : args -> outcome datum * args) (rest : args) (w : W) : outcome args * W :=
    match k with
    | Append_library_directory => with_datum (read rest) w (fun d rest => act (Append_directory (external d)) rest w)
    | Add_feature_identifier => with_datum (read rest) w (fun d rest => act (Add_feature d) rest w)
    | Prepend_library_directory => with_datum (read rest) w (fun d rest => act (Prepend_directory (external d)) rest w)
    | Color => with_datum (read rest) w (fun d rest => match d with Bool b => act (Set_color b) rest w | _ => (Raised, w) end)
    | Evaluate => with_datum (read rest) w (fun d rest => act (Evaluate_datum d) rest w)
    | Help => act Print_help rest w
    | Interactive => act Become_interactive rest w
    | Load => with_datum (read rest) w (fun d rest => act (Load_interaction (external d)) rest w)
    | Library_directories => act Print_directories rest w
    | Version => act Print_version rest w
    | Write => with_datum (read rest) w (fun d rest => act (Write_datum d) rest w)
    end.

  (** configuration.cpp:274-280: one option per letter *)
  Fixpoint letters (s : list Z) (rest : args) (w : W) : outcome args * W :=
    match s with
    | [] => (Normal rest, w)
    | c :: s =>
      match evaluator [c] with
      | None => (Raised, w)
      | Some k => match evaluate k read_next rest w with
                  | (Normal rest, w) => letters s rest w
                  | stopped => stopped
                  end
      end
    end.

  (** The body of the loop, configuration.cpp:255-297 *)
  Definition argument (a : list Z) (rest : args) (w : W) : outcome args * W :=
    match regex_match pattern a with
    | Some result =>
      if negb (Nat.eqb (length (result 3%nat)) 0) then letters (result 3%nat) rest w
      else if negb (Nat.eqb (length (result 2%nat)) 0) then
        match evaluator (result 1%nat) with
        | None => (Raised, w)
        | Some k => evaluate k (read_value (result 2%nat)) rest w
        end
      else if negb (Nat.eqb (length (result 1%nat)) 0) then
        match evaluator (result 1%nat) with
        | None => (Raised, w)
        | Some k => evaluate k read_next rest w
        end
      else (Normal rest, w)
    | None => act (Load_file a) rest w
    end.

  (** The loop, configuration.cpp:255; each turn takes an argument at least *)
  Fixpoint loop (fuel : nat) (rest : args) (w : W) : outcome unit * W :=
    match fuel, rest with
    | _, [] => (Normal tt, w)
    | O, _ => (Unknown, w)
    | S fuel, a :: rest =>
      match argument a rest w with
      | (Normal rest, w) => loop fuel rest w
      | (o, w) => (halt o, w)
      end
    end.

  (** configure, configuration.cpp:235-298; without a name of the program std::next is
      undefined *)
  Definition configure (arguments : args) (w : W) : outcome unit * W :=
    match arguments with
    | [] => (Unknown, w)
    | _ :: rest => loop (length rest) rest w
    end.

  (** main, src/main.cpp:23-92, after boot and load_scheme_libraries; the session of
      main.cpp:34-66 is a parameter *)
  Variable is_interactive : W -> bool.
  Variable session : W -> outcome unit * W.
  Inductive status := Status (n : Z) | Terminated | Unmodelled.
  Definition main (arguments : args) (w : W) : status * W :=
    let '(o, w) := match configure arguments w with
                   | (Normal _, w) => if is_interactive w then session w else (Normal tt, w)
                   | stopped => stopped
                   end in
    (match o with
     | Normal _ => Status 0
     | Exited n => Status n
     | Raised => Status 1
     | Uncaught => Terminated
     | Unknown => Unmodelled
     end, w).
End Configure.

(** ** The help text *)
(** input >> word: words are separated by white space, configuration.cpp:61 *)
Fixpoint words_from (s : list Z) (word : list Z) : list (list Z) :=
  match s with
  | [] => match word with [] => [] | _ => [rev word] end
  | c :: s => if is_blank c then match word with [] => words_from s [] | _ => rev word :: words_from s [] end
              else words_from s (c :: word)
  end.
Definition words (s : list Z) : list (list Z) := words_from s [].

(** format, configuration.cpp:53-84 *)
Definition size (s : list Z) : Z := Z.of_nat (length s).
Fixpoint format_words (indent : list Z) (column_max : Z) (ws : list (list Z)) (output : list Z) (column : Z) : list Z :=
  match ws with
  | [] => output
  | w :: ws =>
    if size indent <? column then
      if column_max <? column + 1 + size w then
        format_words indent column_max ws (output ++ [10] ++ indent ++ w) (size indent + size w)
      else format_words indent column_max ws (output ++ [32] ++ w) (column + (1 + size w))
    else format_words indent column_max ws (output ++ w) (column + size w)
  end.
Definition format (text indent : list Z) (column_max : Z) : list Z :=
  format_words indent column_max (words text) indent (size indent).
