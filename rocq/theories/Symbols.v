(** Model of symbol interning: src/kernel/symbol.cpp:47-68, and string->symbol and
    symbol->string, src/kernel/boot.cpp:371-374.

    The heap is a list of objects and an address is a position in it.  Nothing is
    freed: every interned symbol is reachable from the table, which is a root
    (C08-C10 are about reclamation). *)
From Coq Require Import ZArith List Bool Lia.
From Verif Require Import TextPort TextPortProofs.
Import ListNotations.
Open Scope Z_scope.

Inductive object := Symbol (name : list Z) | Anything.
Record world := World { objects : list object; table : list (list Z * nat) }.
Definition empty_world : world := World [] [].

(** std::unordered_map<std::string, object>::find on byte strings *)
Fixpoint find (name : list Z) (t : list (list Z * nat)) : option nat :=
  match t with
  | [] => None
  | (n, a) :: t => if list_eq_dec Z.eq_dec n name then Some a else find name t
  end.

(** make_symbol, symbol.cpp:53-68.  emplace after a failed find succeeds, so the
    last branch is not reached. *)
Definition make_symbol (name : list Z) (w : world) : nat * world :=
  match find name (table w) with
  | Some a => (a, w)
  | None => let a := length (objects w) in
            (a, World (objects w ++ [Symbol name]) (table w ++ [(name, a)]))
  end.

(** string->symbol, boot.cpp:373: the name is the UTF-8 form of the string *)
Definition string_to_symbol (cs : list Z) (w : world) : nat * world :=
  make_symbol (string_utf8 cs) w.

(** symbol->string, boot.cpp:372: the string is decoded from the name *)
Definition symbol_to_string (a : nat) (w : world) : option result :=
  match nth_error (objects w) a with
  | Some (Symbol name) => Some (make_string name)
  | _ => None
  end.

(** What a program does to the world: string->symbol, the reader interning a token
    (textual_input_port.cpp:608-612), any other allocation *)
Inductive op := String_to_symbol (cs : list Z) | Read_token (bytes : list Z) | Allocate.
Definition run_op (o : op) (w : world) : option nat * world :=
  match o with
  | String_to_symbol cs => let '(a, w) := string_to_symbol cs w in (Some a, w)
  | Read_token bytes => let '(a, w) := make_symbol bytes w in (Some a, w)
  | Allocate => (None, World (objects w ++ [Anything]) (table w))
  end.
Fixpoint run_ops (ops : list op) (w : world) : list (option nat) * world :=
  match ops with
  | [] => ([], w)
  | o :: ops => let '(r, w) := run_op o w in let '(rs, w) := run_ops ops w in (r :: rs, w)
  end.

(** ** Proofs *)
(** The table lists the symbols of the heap, one per name *)
Record table_ok (w : world) : Prop := {
  sound : forall n a, In (n, a) (table w) -> nth_error (objects w) a = Some (Symbol n);
  unique : NoDup (map fst (table w)) }.

Lemma find_in name t a : find name t = Some a -> In (name, a) t.
Proof.
  induction t as [|[n b] t IH]; cbn [find]; [discriminate|].
  destruct (list_eq_dec Z.eq_dec n name) as [->|]; intros E; [injection E as ->; left; reflexivity|right; auto].
Qed.
Lemma find_none name t : find name t = None -> ~ In name (map fst t).
Proof.
  induction t as [|[n b] t IH]; cbn [find map fst]; [intros _ []|].
  destruct (list_eq_dec Z.eq_dec n name) as [->|N]; intros E; [discriminate|].
  intros [F|F]; [exact (N F)|exact (IH E F)].
Qed.
Lemma in_find name t a : NoDup (map fst t) -> In (name, a) t -> find name t = Some a.
Proof.
  induction t as [|[n b] t IH]; cbn [find map fst]; intros ND; [intros []|]. inversion ND as [|? ? N ND']; subst.
  intros [E|I]; [injection E as -> ->; destruct (list_eq_dec Z.eq_dec name name); congruence|].
  destruct (list_eq_dec Z.eq_dec n name) as [->|]; [|auto].
  exfalso. apply N. apply in_map_iff. exists (name, a). auto.
Qed.
Lemma nth_app (l l' : list object) i o : nth_error l i = Some o -> nth_error (l ++ l') i = Some o.
Proof. intros H. rewrite nth_error_app1; [exact H|]. apply nth_error_Some. congruence. Qed.

Lemma nodup_snoc (A : Type) (l : list A) x : NoDup l -> ~ In x l -> NoDup (l ++ [x]).
Proof.
  intros ND N. induction ND as [|y l N' ND IH]; [constructor; [intros []|constructor]|].
  cbn [app]. constructor.
  - intros I. apply in_app_iff in I. destruct I as [I|[<-|[]]]; [auto|]. apply N. left. reflexivity.
  - apply IH. intros I. apply N. right. exact I.
Qed.
(** [interned n a w]: the name [n] stands for the object [a] *)
Definition interned (n : list Z) (a : nat) (w : world) : Prop := In (n, a) (table w).

Lemma make_symbol_ok name w : table_ok w ->
  let '(a, w') := make_symbol name w in
  table_ok w' /\ interned name a w' /\ (forall n b, interned n b w -> interned n b w') /\
  (forall i o, nth_error (objects w) i = Some o -> nth_error (objects w') i = Some o).
Proof.
  intros [S U]. unfold make_symbol. destruct (find name (table w)) as [a|] eqn:F.
  - split; [split; assumption|]. split; [apply find_in; exact F|]. auto.
  - split; [split|]; cbn [objects table].
    + intros n a I. apply in_app_iff in I. destruct I as [I|[I|[]]]; [apply nth_app; auto|].
      injection I as <- <-. rewrite nth_error_app2, Nat.sub_diag by lia. reflexivity.
    + rewrite map_app. apply nodup_snoc; [exact U|]. apply find_none. exact F.
    + split; [apply in_app_iff; right; left; reflexivity|].
      split; [intros n b I; apply in_app_iff; left; exact I|intros i o; apply nth_app].
Qed.

(** The name an operation interns *)
Definition name_of (o : op) : option (list Z) :=
  match o with
  | String_to_symbol cs => Some (string_utf8 cs)
  | Read_token bytes => Some bytes
  | Allocate => None
  end.
Lemma run_op_ok o w : table_ok w -> let '(r, w') := run_op o w in
  table_ok w' /\ (forall n b, interned n b w -> interned n b w') /\
  match name_of o, r with
  | Some n, Some a => interned n a w'
  | None, None => True
  | _, _ => False
  end.
Proof.
  intros T. destruct o as [cs|bytes|]; cbn [run_op name_of].
  - unfold string_to_symbol. pose proof (make_symbol_ok (string_utf8 cs) w T) as H.
    destruct (make_symbol (string_utf8 cs) w) as [a w']. tauto.
  - pose proof (make_symbol_ok bytes w T) as H. destruct (make_symbol bytes w) as [a w']. tauto.
  - split; [|split; auto]. destruct T as [S U]. split; [|exact U]. intros n a I. cbn [objects]. apply nth_app. auto.
Qed.
Lemma run_ops_ok ops : forall w, table_ok w -> let '(rs, w') := run_ops ops w in
  table_ok w' /\ (forall n b, interned n b w -> interned n b w') /\
  forall i o a, nth_error ops i = Some o -> nth_error rs i = Some (Some a) ->
    exists n, name_of o = Some n /\ interned n a w'.
Proof.
  induction ops as [|o ops IH]; intros w T; cbn [run_ops].
  - split; [exact T|]. split; [auto|]. intros i o a H. destruct i; discriminate H.
  - pose proof (run_op_ok o w T) as H. destruct (run_op o w) as [r w1]. destruct H as (T1 & K1 & R1).
    pose proof (IH w1 T1) as H. destruct (run_ops ops w1) as [rs w2]. destruct H as (T2 & K2 & R2).
    split; [exact T2|]. split; [auto|]. intros [|i] o' a; cbn [nth_error]; intros E F.
    + injection E as <-. injection F as ->. destruct (name_of o) as [n|]; [|contradiction]. exists n. auto.
    + exact (R2 i o' a E F).
Qed.
Lemma interned_iff w n m a b : table_ok w -> interned n a w -> interned m b w -> (a = b <-> n = m).
Proof.
  intros [S U] A B. split; intros E.
  - subst b. apply S in A, B. congruence.
  - subst m. apply (in_find _ _ _ U) in A. apply (in_find _ _ _ U) in B. congruence.
Qed.
Lemma empty_ok : table_ok empty_world.
Proof. split; [intros n a []|constructor]. Qed.

(** Two strings without NUL have the same UTF-8 form only if they are equal *)
Lemma utf8_injective cs ds : Forall codepoint cs -> Forall codepoint ds ->
  string_utf8 cs = string_utf8 ds -> cs = ds.
Proof.
  intros C D E. rewrite !string_utf8_text in E by assumption.
  pose proof (make_string_text cs C) as Mc. pose proof (make_string_text ds D) as Md.
  rewrite E in Mc. congruence.
Qed.

Lemma intern_history ops : let '(rs, w) := run_ops ops empty_world in
  (forall i j cs ds a b,
     nth_error ops i = Some (String_to_symbol cs) -> nth_error rs i = Some (Some a) ->
     nth_error ops j = Some (String_to_symbol ds) -> nth_error rs j = Some (Some b) ->
     Forall codepoint cs -> Forall codepoint ds -> (a = b <-> cs = ds)) /\
  (forall i cs a,
     nth_error ops i = Some (String_to_symbol cs) -> nth_error rs i = Some (Some a) ->
     Forall codepoint cs -> symbol_to_string a w = Some (A_string cs)) /\
  (forall i j cs bs a b,
     nth_error ops i = Some (String_to_symbol cs) -> nth_error rs i = Some (Some a) ->
     nth_error ops j = Some (Read_token bs) -> nth_error rs j = Some (Some b) ->
     (a = b <-> string_utf8 cs = bs)).
Proof.
  pose proof (run_ops_ok ops empty_world empty_ok) as H. destruct (run_ops ops empty_world) as [rs w].
  destruct H as (T & _ & R). repeat apply conj.
  - intros i j cs ds a b Oi Ri Oj Rj Cc Cd. destruct (R _ _ _ Oi Ri) as (n & En & In_). destruct (R _ _ _ Oj Rj) as (m & Em & Im).
    injection En as <-. injection Em as <-. rewrite (interned_iff w _ _ _ _ T In_ Im).
    split; [apply utf8_injective; assumption|congruence].
  - intros i cs a Oi Ri C. destruct (R _ _ _ Oi Ri) as (n & En & In_). injection En as <-.
    apply (sound w T) in In_. unfold symbol_to_string. rewrite In_, string_utf8_text by exact C. f_equal.
    apply make_string_text. exact C.
  - intros i j cs bs a b Oi Ri Oj Rj. destruct (R _ _ _ Oi Ri) as (n & En & In_). destruct (R _ _ _ Oj Rj) as (m & Em & Im).
    injection En as <-. injection Em as <-. apply (interned_iff w _ _ _ _ T In_ Im).
Qed.
Lemma run_ops_length ops : forall w i o, nth_error ops i = Some o -> name_of o <> None ->
  exists a, nth_error (fst (run_ops ops w)) i = Some (Some a).
Proof.
  induction ops as [|o ops IH]; intros w i o' E N; [destruct i; discriminate E|]. cbn [run_ops].
  destruct (run_op o w) as [r w1] eqn:R. destruct (run_ops ops w1) as [rs w2] eqn:Q. cbn [fst].
  destruct i as [|i]; cbn [nth_error] in *.
  - injection E as ->. destruct o' as [cs|bs|]; cbn [run_op name_of] in *; [| |congruence].
    + destruct (string_to_symbol cs w). injection R as <- _. eauto.
    + destruct (make_symbol bs w). injection R as <- _. eauto.
  - specialize (IH w1 i o' E N). rewrite Q in IH. exact IH.
Qed.
