(** C117: display. *)
From Coq Require Import Ascii String ZArith List Bool Lia.
From Verif Require Import Number TextPort TextPortProofs Writer Display DisplaySpec.
Import ListNotations.
Open Scope Z_scope.

Fixpoint depth (d : datum) : nat :=
  match d with
  | Pair a b => S (Nat.max (depth a) (depth b))
  | Vec ds => S (fold_right (fun d n => Nat.max (depth d) n) 0%nat ds)
  | _ => 0%nat
  end.
Definition tail_of (ix : nat -> list Z) := fix tail (b : datum) : option (list Z) :=
  match b with
  | Nil => Some (codes ")")
  | Pair a b => let? t := write ix a in let? ts := tail b in Some (0x20 :: t ++ ts)
  | x => let? t := write ix x in Some (codes " . " ++ t ++ codes ")")
  end.
Definition items_of (ix : nat -> list Z) := fix elements (ds : list datum) : option (list Z) :=
  match ds with
  | [] => Some (codes ")")
  | d :: ds => let? t := write ix d in let? ts := elements ds in Some (0x20 :: t ++ ts)
  end.
Lemma write_pair ix a b : write ix (Pair a b) = let? t := write ix a in let? ts := tail_of ix b in Some (0x28 :: t ++ ts).
Proof. reflexivity. Qed.
Lemma write_vec ix d ds : write ix (Vec (d :: ds)) = let? t := write ix d in let? ts := items_of ix ds in Some (codes "#(" ++ t ++ ts).
Proof. reflexivity. Qed.
Lemma bare_written ix d : bare d -> exists t, write ix d = Some t.
Proof. destruct d; intros []; eexists; reflexivity. Qed.
Lemma tail_dot ix d t : d <> Nil -> (forall a b, d <> Pair a b) -> write ix d = Some t -> shown ix d t ->
  exists u, tail_of ix d = Some u /\ shown_rest ix d u.
Proof.
  intros N P W S. exists (codes " . " ++ t ++ codes ")"). split; [|apply Rest_dot; assumption].
  destruct d; try congruence; cbn [tail_of]; rewrite W; reflexivity.
Qed.
Lemma write_unescaped ix : forall n,
  (forall d, (depth d < n)%nat -> unescaped d -> exists t, write ix d = Some t /\ shown ix d t) /\
  (forall d, (depth d < n)%nat -> unescaped d -> exists t, tail_of ix d = Some t /\ shown_rest ix d t).
Proof.
  induction n as [|n [IHd IHt]]; [split; intros d L; lia|].
  assert (D : forall d, (depth d < S n)%nat -> unescaped d -> exists t, write ix d = Some t /\ shown ix d t).
  { intros d L U. destruct U as [d B|name NE N|a b A B|ds F].
    - destruct (bare_written ix d B) as (t & W). exists t. split; [exact W|apply Shown_bare; assumption].
    - exists name. split; [|apply Shown_symbol]. cbn [write]. unfold write_symbol. destruct name as [|c cs]; [congruence|].
      replace (existsb special (c :: cs)) with false; [reflexivity|].
      symmetry. apply not_true_is_false. intros X. apply existsb_exists in X. destruct X as (x & I & S). rewrite Forall_forall in N. rewrite (N x I) in S. discriminate S.
    - cbn [depth] in L. destruct (IHd a ltac:(lia) A) as (t & W & S). destruct (IHt b ltac:(lia) B) as (u & V & T).
      exists (codes "(" ++ t ++ u). split; [rewrite write_pair, W; cbn [obind]; rewrite V; reflexivity|apply Shown_pair; assumption].
    - cbn [depth] in L. assert (L' : Forall (fun d => (depth d < n)%nat) ds).
      { assert (L0 : (fold_right (fun d n => Nat.max (depth d) n) 0%nat ds < n)%nat) by lia. clear - L0.
        induction ds as [|d ds IH]; constructor; cbn [fold_right] in L0; [lia|apply IH; lia]. }
      clear L. destruct ds as [|d ds]; [exists (codes "#()"); split; [reflexivity|apply Shown_empty]|].
      inversion F as [|? ? Fd Fs]; subst. inversion L' as [|? ? Ld Ls]; subst. destruct (IHd d Ld Fd) as (t & W & S).
      assert (Items : exists u, items_of ix ds = Some u /\ shown_items ix ds u).
      { clear - Fs Ls IHd. induction ds as [|d ds IH]; [exists (codes ")"); split; [reflexivity|apply Items_none]|].
        inversion Fs as [|? ? Fd Fs']; subst. inversion Ls as [|? ? Ld Ls']; subst. destruct (IHd d Ld Fd) as (t & W & S). destruct (IH Fs' Ls') as (u & V & T).
        exists (codes " " ++ t ++ u). split; [cbn [items_of]; rewrite W; cbn [obind]; fold (items_of ix); rewrite V; reflexivity|apply Items_more; assumption]. }
      destruct Items as (u & V & T). exists (codes "#(" ++ t ++ u). split; [rewrite write_vec, W; cbn [obind]; rewrite V; reflexivity|apply Shown_vector; assumption]. }
  split; [exact D|]. intros d L U.
  assert (Cases : d = Nil \/ (exists a b, d = Pair a b) \/ (d <> Nil /\ forall a b, d <> Pair a b)) by (destruct d; auto; right; (left; eauto; fail) || (right; split; discriminate)).
  destruct Cases as [-> | [(a & b & ->)|[N P]]].
  - exists (codes ")"). split; [reflexivity|apply Rest_nil].
  - assert (AB : unescaped a /\ unescaped b) by (inversion U as [? B| | |]; subst; [destruct B|auto]). destruct AB as [A B]. cbn [depth] in L. destruct (IHd a ltac:(lia) A) as (t & W & S). destruct (IHt b ltac:(lia) B) as (u & V & T).
    exists (codes " " ++ t ++ u). split; [cbn [tail_of]; rewrite W; cbn [obind]; fold (tail_of ix); rewrite V; reflexivity|apply Rest_pair; assumption].
  - destruct (D d L U) as (t & W & S). eapply tail_dot; eassumption.
Qed.

(** Full statement: for every datum d, display d = Some t implies shown d t.  Missing: strings and
    characters inside of lists and vectors, symbols with special characters and the empty symbol, and the character
    NUL; for these the statement is refuted below. *)
Theorem C117_display_partial : forall ix d,
  (unescaped d \/ (exists c, d = Chr c /\ codepoint c) \/ (exists cs, d = Str cs /\ Forall codepoint cs)) ->
  exists t, display ix d = Some t /\ shown ix d t.
Proof.
  intros ix d [U|[(c & -> & C)|(cs & -> & C)]].
  - destruct (proj1 (write_unescaped ix (S (depth d))) d ltac:(lia) U) as (t & W & S). exists t. split; [|exact S].
    destruct U as [d B|name NE N|a b A B|ds F]; try exact W. destruct d; try destruct B; exact W.
  - exists (rfc3629 c). split; [|apply Shown_char]. cbn [display]. rewrite utf8_is_rfc by exact C. reflexivity.
  - exists (flat_map rfc3629 cs). split; [|apply Shown_string]. cbn [display]. rewrite string_utf8_text by exact C. reflexivity.
Qed.
Print Assumptions C117_display_partial.

(** display of ("a") writes ("a"), of (#\a) writes (#\a), and of |a b| writes #"a b" *)
Theorem C117_nested_string_refuted : exists ix d t, display ix d = Some t /\ ~ shown ix d t.
Proof.
  exists (fun _ => []), (Pair (Str [97]) Nil), (codes "(""a"")"). split; [reflexivity|]. intros S. inversion S as [? ? B| | | |? ? t u A R Eq1 Eq2| |]; subst; [destruct B|].
  inversion A as [? ? B| |cs| | | |]; subst; [destruct B|]. discriminate Eq2.
Qed.
Print Assumptions C117_nested_string_refuted.
Theorem C117_nested_char_refuted : exists ix c t, display ix (Pair (Chr c) Nil) = Some t /\ ~ shown ix (Pair (Chr c) Nil) t.
Proof.
  exists (fun _ => []), 97, (codes "(#\a)"). split; [reflexivity|]. intros S. inversion S as [? ? B| | | |? ? t u A R Eq1 Eq2| |]; subst; [destruct B|].
  inversion A as [? ? B|c| | | | |]; subst; [destruct B|]. discriminate Eq2.
Qed.
Print Assumptions C117_nested_char_refuted.
Theorem C117_symbol_refuted : exists ix name t, display ix (Sym name) = Some t /\ ~ shown ix (Sym name) t.
Proof.
  exists (fun _ => []), (codes "a b"), (codes "#""a b"""). split; [reflexivity|]. intros S. inversion S as [? ? B| | |name Eq| | |]; subst. destruct B.
Qed.
Print Assumptions C117_symbol_refuted.
(** The character NUL is not written *)
Theorem C117_nul_refuted : forall ix, display ix (Chr 0) = Some [] /\ ~ shown ix (Chr 0) [].
Proof. intros ix. split; [reflexivity|]. intros S. inversion S as [? ? B| | | | | |]; subst. destruct B. Qed.
Print Assumptions C117_nul_refuted.

Example C117_ex : display (fun _ => []) (Pair (Sym (codes "ab")) (Pair (Vec [Num (Small 1); Bool false]) (Num (Small (-7))))) = Some (codes "(ab #(1 #f) . -7)") /\
  display (fun _ => []) (Str (codes "a""b")) = Some (codes "a""b") /\ display (fun _ => []) (Chr 0x3BB) = Some [0xCE; 0xBB].
Proof. repeat split. Qed.
Example C117_ex_unescaped : unescaped (Pair (Sym (codes "ab")) (Pair (Vec [Num (Small 1); Bool false]) (Num (Small (-7))))).
Proof. repeat constructor; discriminate. Qed.
