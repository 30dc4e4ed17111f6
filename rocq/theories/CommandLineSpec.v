(** Specification of the command line: the options as the help text of meevax documents them
    (configuration.cpp:90-213, from SRFI 138), the ways to spell them, and what they mean. It
    uses the names of options, actions and outcomes of Configuration.v, and nothing else of
    that model. *)
From Coq Require Import String ZArith List Bool.
From Verif Require Import Writer Reader Configuration.
Import ListNotations.
Open Scope Z_scope.

(** The documented names and whether an operand is documented *)
Definition long_name (k : option_kind) : list Z :=
  codes match k with
        | Append_library_directory => "append-library-directory"
        | Add_feature_identifier => "add-feature-identifier"
        | Prepend_library_directory => "prepend-library-directory"
        | Color => "color"
        | Evaluate => "evaluate"
        | Help => "help"
        | Interactive => "interactive"
        | Load => "load"
        | Library_directories => "library-directories"
        | Version => "version"
        | Write => "write"
        end.
Definition short_name (k : option_kind) : option Z :=
  match k with
  | Append_library_directory => Some 65
  | Add_feature_identifier => Some 68
  | Prepend_library_directory => Some 73
  | Evaluate => Some 101
  | Help => Some 104
  | Interactive => Some 105
  | Load => Some 108
  | Version => Some 118
  | Write => Some 119
  | Color | Library_directories => None
  end.
Definition takes_operand (k : option_kind) : bool :=
  match k with
  | Help | Interactive | Library_directories | Version => false
  | _ => true
  end.

(** What a user wants to be done, in this order *)
Inductive request :=
| Use (k : option_kind) (operand : option (list Z))
| Run (file : list Z).

(** Characters of options *)
Definition alphanumeric (c : Z) : Prop := 48 <= c <= 57 \/ 65 <= c <= 90 \/ 97 <= c <= 122 \/ c = 95.
Definition one_line (s : list Z) : Prop := forall c, In c s -> c <> 10 /\ c <> 13.

(** An operand is given exactly if one is documented *)
Definition supplied (k : option_kind) (operand : option (list Z)) : Prop :=
  takes_operand k = match operand with Some _ => true | None => false end.
Definition operands (l : list (option_kind * option (list Z))) : list (list Z) :=
  flat_map (fun o => match snd o with Some t => [t] | None => [] end) l.

(** Ways to spell requests: -e operand; -ei operand; --evaluate operand;
    --evaluate=operand; a file *)
Inductive spelling : list request -> list (list Z) -> Prop :=
| short_options l cs : l <> [] -> Forall2 (fun o c => short_name (fst o) = Some c) l cs -> Forall (fun o => supplied (fst o) (snd o)) l ->
    spelling (map (fun o => Use (fst o) (snd o)) l) ((45 :: cs) :: operands l)
| long_option k operand : supplied k operand ->
    spelling [Use k operand] ((codes "--" ++ long_name k) :: operands [(k, operand)])
| long_option_equals k value : takes_operand k = true -> value <> [] -> one_line value ->
    spelling [Use k (Some value)] [codes "--" ++ long_name k ++ codes "=" ++ value]
| file_name path : hd 0 path <> 45 ->
    spelling [Run path] [path].

Inductive command_line : list request -> list (list Z) -> Prop :=
| no_more : command_line [] []
| one_more rs ws rs' ws' : spelling rs ws -> command_line rs' ws' -> command_line (rs ++ rs') (ws ++ ws').

Section Meaning.
  Context {W : Type}.
  Variable perform : action -> W -> outcome unit * W.
  Variable reads : list Z -> reading.
  Variable external : datum -> list Z.

  (** What an option does with its operand *)
  Definition action_of (k : option_kind) (d : datum) : option action :=
    match k, d with
    | Append_library_directory, _ => Some (Append_directory (external d))
    | Add_feature_identifier, _ => Some (Add_feature d)
    | Prepend_library_directory, _ => Some (Prepend_directory (external d))
    | Color, Bool b => Some (Set_color b)
    | Color, _ => None
    | Evaluate, _ => Some (Evaluate_datum d)
    | Load, _ => Some (Load_interaction (external d))
    | Write, _ => Some (Write_datum d)
    | Help, _ => Some Print_help
    | Interactive, _ => Some Become_interactive
    | Library_directories, _ => Some Print_directories
    | Version, _ => Some Print_version
    end.
  Definition means (r : request) (w : W) : outcome unit * W :=
    match r with
    | Run path => perform (Load_file path) w
    | Use k None => match action_of k Nil with Some a => perform a w | None => (Raised, w) end
    | Use k (Some t) =>
      match reads t with
      | Datum d => match action_of k d with Some a => perform a w | None => (Raised, w) end
      | Failed => (Raised, w)
      | Close | Dot => (Uncaught, w)
      | _ => (Unknown, w)
      end
    end.
  (** One request after another, up to the first that does not end normally *)
  Fixpoint all (rs : list request) (w : W) : outcome unit * W :=
    match rs with
    | [] => (Normal tt, w)
    | r :: rs => match means r w with
                 | (Normal _, w) => all rs w
                 | stopped => stopped
                 end
    end.
End Meaning.

(** An argument that looks like an option but is none *)
Inductive unknown_option : list Z -> Prop :=
| unknown_letter c cs : (forall x, In x (c :: cs) -> alphanumeric x) -> (forall k, short_name k <> Some c) -> unknown_option (45 :: c :: cs)
| unknown_name c d cs : alphanumeric c -> (forall x, In x (d :: cs) -> alphanumeric x \/ x = 45) -> (forall k, long_name k <> c :: d :: cs) ->
    unknown_option (codes "--" ++ c :: d :: cs)
| unknown_name_equals c d cs value : alphanumeric c -> (forall x, In x (d :: cs) -> alphanumeric x \/ x = 45) -> (forall k, long_name k <> c :: d :: cs) -> one_line value ->
    unknown_option (codes "--" ++ (c :: d :: cs) ++ codes "=" ++ value).

(** ** The help text *)
(** Lines of words, joined with single spaces *)
Fixpoint line (ws : list (list Z)) : list Z :=
  match ws with
  | [] => []
  | [w] => w
  | w :: ws => w ++ [32] ++ line ws
  end.
Fixpoint paragraph (indent : list Z) (ls : list (list (list Z))) : list Z :=
  match ls with
  | [] => indent
  | [l] => indent ++ line l
  | l :: ls => indent ++ line l ++ [10] ++ paragraph indent ls
  end.
(** The words of a text: the maximal runs of characters that are not blank *)
Definition blank (c : Z) : Prop := c = 32 \/ 9 <= c <= 13.
Inductive in_words : list Z -> list (list Z) -> Prop :=
| w_nil : in_words [] []
| w_blank c s ws : blank c -> in_words s ws -> in_words (c :: s) ws
| w_last w : w <> [] -> (forall c, In c w -> ~ blank c) -> in_words w [w]
| w_word w b s ws : w <> [] -> (forall c, In c w -> ~ blank c) -> blank b -> in_words s ws -> in_words (w ++ b :: s) (w :: ws).
(** Greedy lines: each line is as wide as the limit or has one word, and the first word of
    the next line did not fit *)
Fixpoint lines_fit (indent : list Z) (limit : Z) (ls : list (list (list Z))) : Prop :=
  match ls with
  | [] => True
  | l :: ls => l <> [] /\ (length l = 1%nat \/ Z.of_nat (length indent + length (line l)) <= limit) /\
      match ls with
      | (w :: _) :: _ => limit < Z.of_nat (length indent + length (line l) + 1 + length w)
      | _ => True
      end /\ lines_fit indent limit ls
  end.
