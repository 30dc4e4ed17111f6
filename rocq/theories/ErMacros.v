(** The er-macro-transformers lazy and delay of library/srfi-45.ss, parameterize of library/srfi-39.ss and
    letrec* of library/r7rs.ss, as procedures from the form to the template of Expander.v: parts of the form
    and results of rename.

    Simplifications.  A form for which a car, cdr or map of the transformer is an error, or gives something other than
    what the rest of the transformer takes apart, has no template ([None]).
    delay-force is another name of lazy (library/r7rs.ss:474). *)
From Coq Require Import List Bool Arith.
From Verif Require Import Expander.
Import ListNotations.

(** the symbols that the transformers rename; [k_lambda] and [k_define] are the keywords of the core *)
Definition s_promise := 40.  Definition s_lazy := 41.  Definition s_dynamic_bind := 42.  Definition s_list := 43.  Definition s_let := 44.
(** #f and #t *)
Definition a_false := 0.  Definition a_true := 1.

(** srfi-45.ss:39-42 *)
Definition lazy_ (form : form) : option template :=
  match form with
  | Pair _ (Pair e _) => Some (tlist [TName s_promise; TAtom a_false; tlist [TName k_lambda; TNil; TForm e]])
  | _ => None
  end.
(** srfi-45.ss:44-47 *)
Definition delay_ (form : form) : option template :=
  match form with
  | Pair _ (Pair e _) => Some (tlist [TName s_lazy; tlist [TName s_promise; TAtom a_true; TForm e]])
  | _ => None
  end.
(** map car and map cadr of a list of lists *)
Fixpoint cars (x : form) : option form :=
  match x with
  | Nil => Some Nil
  | Pair (Pair a _) d => match cars d with Some l => Some (Pair a l) | None => None end
  | _ => None
  end.
Fixpoint cadrs (x : form) : option form :=
  match x with
  | Nil => Some Nil
  | Pair (Pair _ (Pair a _)) d => match cadrs d with Some l => Some (Pair a l) | None => None end
  | _ => None
  end.
(** srfi-39.ss:74-84 *)
Definition parameterize_ (form : form) : option template :=
  match form with
  | Pair _ (Pair specs body) =>
    match cars specs, cadrs specs with
    | Some ps, Some vs => Some (tlist [TName s_dynamic_bind; TPair (TName s_list) (TForm ps); TPair (TName s_list) (TForm vs);
                                       TPair (TName k_lambda) (TPair TNil (TForm body))])
    | _, _ => None
    end
  | _ => None
  end.
(** r7rs.ss:118-119: the definitions in front of the body *)
Fixpoint definitions (specs body : form) : option template :=
  match specs with
  | Nil => Some (TForm body)
  | Pair s d => match definitions d body with Some r => Some (TPair (TPair (TName k_define) (TForm s)) r) | None => None end
  | _ => None
  end.
(** r7rs.ss:114-120 *)
Definition letrec_star (form : form) : option template :=
  match form with
  | Pair _ (Pair specs body) => match definitions specs body with Some r => Some (TPair (TName s_let) (TPair TNil r)) | None => None end
  | _ => None
  end.
(** r4rs.ss:187-195 *)
Definition let_ (form : form) : option template :=
  match form with
  | Pair _ (Pair b rest) =>
    if is_id b then
      match rest with
      | Pair specs body =>
        match cars specs, cadrs specs with
        | Some vs, Some is => Some (tlist [TName k_letrec; tlist [tlist [TForm b; TPair (TName k_lambda) (TPair (TForm vs) (TForm body))]];
                                           TPair (TForm b) (TForm is)])
        | _, _ => None
        end
      | _ => None
      end
    else
      match cars b, cadrs b with
      | Some vs, Some is => Some (TPair (TPair (TName k_lambda) (TPair (TForm vs) (TForm rest))) (TForm is))
      | _, _ => None
      end
  | _ => None
  end.
