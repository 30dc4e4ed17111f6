(** Proofs about the character level of textual ports. *)
From Coq Require Import ZArith List Bool Lia ZifyBool.
From Verif Require Import TextPort.
Import ListNotations.
Open Scope Z_scope.

(** ** Specification: UTF-8 by the table of RFC 3629 *)
Definition rfc3629 (c : Z) : list Z :=
  if c <? 0x80 then [c]
  else if c <? 0x800 then [0xC0 + c / 64; 0x80 + c mod 64]
  else if c <? 0x10000 then [0xE0 + c / 4096; 0x80 + c / 64 mod 64; 0x80 + c mod 64]
  else [0xF0 + c / 262144; 0x80 + c / 4096 mod 64; 0x80 + c / 64 mod 64; 0x80 + c mod 64].
Definition text (cs : list Z) : list Z := flat_map rfc3629 cs.
(** Code points other than NUL (surrogates included: the code does not treat them
    specially). *)
Definition codepoint (c : Z) : Prop := 0 < c <= 0x10FFFF.
Definition scalar_value (c : Z) : Prop := 0 <= c <= 0xD7FF \/ 0xE000 <= c <= 0x10FFFF.

Lemma lor_low : forall a n b, 0 <= n -> 0 <= b < 2^n -> Z.lor (a * 2^n) b = a * 2^n + b.
Proof.
  intros a n b Hn Hb.
  assert (Hl : Z.land (a * 2^n) b = 0).
  { apply Z.bits_inj'. intros i Hi. rewrite Z.land_spec, Z.bits_0.
    destruct (Z_lt_dec i n).
    - rewrite Z.mul_pow2_bits_low by lia. reflexivity.
    - rewrite <- (Z.mod_small b (2^n)) by lia. rewrite Z.mod_pow2_bits_high by lia. apply andb_false_r. }
  rewrite <- (Z.lxor_lor _ _ Hl). symmetry. apply Z.add_nocarry_lxor. exact Hl.
Qed.
Lemma land_mod : forall a n, 0 <= n -> Z.land a (Z.ones n) = a mod 2^n.
Proof. intros. apply Z.land_ones. lia. Qed.

Ltac masks :=
  change 0x3F with (Z.ones 6); change 0x1F with (Z.ones 5); change 0x0F with (Z.ones 4);
  change 0x07 with (Z.ones 3); change 0x7F with (Z.ones 7);
  rewrite ?land_mod by lia; rewrite ?Z.shiftr_div_pow2 by lia; rewrite ?Z.shiftl_mul_pow2 by lia.

Lemma lead_3 : forall x, 0 <= x < 64 -> Z.lor 0x80 x = 0x80 + x.
Proof. intros. change 0x80 with (2 * 2^6). apply lor_low; lia. Qed.
Lemma lead_c0 : forall x, 0 <= x < 32 -> Z.lor 0xC0 x = 0xC0 + x.
Proof. intros. change 0xC0 with (6 * 2^5). apply lor_low; lia. Qed.
Lemma lead_e0 : forall x, 0 <= x < 16 -> Z.lor 0xE0 x = 0xE0 + x.
Proof. intros. change 0xE0 with (14 * 2^4). apply lor_low; lia. Qed.
Lemma lead_f0 : forall x, 0 <= x < 8 -> Z.lor 0xF0 x = 0xF0 + x.
Proof. intros. change 0xF0 with (30 * 2^3). apply lor_low; lia. Qed.

Lemma c_string_id : forall bs, Forall (fun b => b <> 0) bs -> c_string bs = bs.
Proof.
  induction 1; [reflexivity|]. cbn [c_string]. destruct (Z.eqb_spec x 0); [tauto|]. congruence.
Qed.

Ltac zpow := change (2^3) with 8 in *; change (2^4) with 16 in *; change (2^5) with 32 in *;
             change (2^6) with 64 in *; change (2^7) with 128 in *; change (2^12) with 4096 in *;
             change (2^18) with 262144 in *.
Ltac mods := repeat match goal with |- context [?a mod ?b] =>
   lazymatch goal with
   | H : 0 <= a mod b < b |- _ => fail
   | _ => pose proof (Z.mod_pos_bound a b ltac:(lia))
   end end.

Lemma utf8_is_rfc : forall c, codepoint c -> utf8 c = rfc3629 c.
Proof.
  intros c Hc. unfold utf8, rfc3629, codepoint in *.
  assert (0 <= c / 64 < 0x110000/64 + 1) by (split; [apply Z.div_pos; lia | apply Z.div_lt_upper_bound; cbn; lia]).
  assert (0 <= c / 4096 < 0x110) by (split; [apply Z.div_pos; lia | apply Z.div_lt_upper_bound; cbn; lia]).
  assert (0 <= c / 262144 < 5) by (split; [apply Z.div_pos; lia | apply Z.div_lt_upper_bound; cbn; lia]).
  destruct (Z.leb_spec c 0x7F); destruct (Z.ltb_spec c 0x80); try lia.
  { masks. zpow. rewrite Z.mod_small by lia. apply c_string_id. repeat constructor; lia. }
  destruct (Z.leb_spec c 0x7FF); destruct (Z.ltb_spec c 0x800); try lia.
  { assert (c / 64 < 32) by (apply Z.div_lt_upper_bound; lia).
    masks. zpow. rewrite (Z.mod_small (c/64)) by lia.
    mods. rewrite lead_c0, lead_3 by lia. apply c_string_id. repeat constructor; lia. }
  destruct (Z.leb_spec c 0xFFFF); destruct (Z.ltb_spec c 0x10000); try lia.
  { assert (c / 4096 < 16) by (apply Z.div_lt_upper_bound; lia).
    masks. zpow. rewrite (Z.mod_small (c/4096)) by lia.
    mods. rewrite lead_e0, !lead_3 by lia. apply c_string_id. repeat constructor; lia. }
  destruct (Z.leb_spec c 0x10FFFF); try lia.
  masks. zpow. rewrite (Z.mod_small (c/262144)) by lia.
  mods. rewrite lead_f0, !lead_3 by lia. apply c_string_id. repeat constructor; lia.
Qed.

(** ** Decoding *)
Definition at_ (bh rest : list Z) : istream := Stream rest bh false false false.

Lemma get_step : forall bh b r, i_get (at_ bh (b :: r)) = (b, at_ (b :: bh) r).
Proof. reflexivity. Qed.
Lemma peek_step : forall bh b r, i_peek (at_ bh (b :: r)) = (b, at_ bh (b :: r)).
Proof. reflexivity. Qed.

Lemma mask_lead : forall k m x, 0 <= m -> 0 <= x < 2^m -> k mod 2^m = 0 -> Z.land (k + x) (Z.ones m) = x.
Proof.
  intros k m x Hm Hx Hk. rewrite land_mod by lia. rewrite Z.add_mod by lia. rewrite Hk.
  rewrite Z.add_0_l, Z.mod_mod by lia. apply Z.mod_small. lia.
Qed.

Lemma take_utf8 : forall c bh r, codepoint c ->
  take_character (at_ bh (rfc3629 c ++ r)) = (Char c, at_ (rev (rfc3629 c) ++ bh) r).
Proof.
  intros c bh r Hc. unfold rfc3629, codepoint in *.
  pose proof (Z.div_mod c 64 ltac:(lia)) as D1. pose proof (Z.mod_pos_bound c 64 ltac:(lia)).
  pose proof (Z.div_mod (c/64) 64 ltac:(lia)) as D2. pose proof (Z.mod_pos_bound (c/64) 64 ltac:(lia)).
  pose proof (Z.div_mod (c/4096) 64 ltac:(lia)) as D3. pose proof (Z.mod_pos_bound (c/4096) 64 ltac:(lia)).
  rewrite Z.div_div in D2 by lia. change (64*64) with 4096 in D2.
  rewrite Z.div_div in D3 by lia. change (4096*64) with 262144 in D3.
  assert (B1 : 0 <= c / 64) by (apply Z.div_pos; lia).
  assert (B2 : 0 <= c / 4096) by (apply Z.div_pos; lia).
  assert (B3 : 0 <= c / 262144) by (apply Z.div_pos; lia).
  destruct (Z.ltb_spec c 0x80).
  { cbn [app rev]. unfold take_character. rewrite peek_step.
    replace ((c =? eof) || ((0 <=? c) && (c <=? 127))) with true by (unfold eof; lia).
    rewrite get_step. reflexivity. }
  destruct (Z.ltb_spec c 0x800).
  { assert (c / 64 < 32) by lia. assert (2 <= c / 64) by lia.
    cbn [app rev]. unfold take_character. rewrite peek_step.
    set (x := c / 64) in *. set (y := c mod 64) in *.
    replace ((0xC0 + x =? eof) || ((0 <=? 0xC0 + x) && (0xC0 + x <=? 127))) with false by (unfold eof; lia).
    replace ((194 <=? 192 + x) && (192 + x <=? 223)) with true by lia.
    rewrite !get_step. do 2 f_equal.
    change 0x1F with (Z.ones 5). change 0x3F with (Z.ones 6).
    rewrite !mask_lead by (zpow; try lia; reflexivity).
    rewrite Z.shiftl_mul_pow2 by lia. rewrite lor_low by (zpow; lia). zpow. lia. }
  destruct (Z.ltb_spec c 0x10000).
  { assert (c / 4096 < 16) by lia.
    cbn [app rev]. unfold take_character. rewrite peek_step.
    set (x := c / 4096) in *. set (y := c / 64 mod 64) in *. set (z := c mod 64) in *.
    replace ((0xE0 + x =? eof) || ((0 <=? 0xE0 + x) && (0xE0 + x <=? 127))) with false by (unfold eof; lia).
    replace ((194 <=? 0xE0 + x) && (0xE0 + x <=? 223)) with false by lia.
    replace ((0xE0 <=? 0xE0 + x) && (0xE0 + x <=? 0xEF)) with true by lia.
    rewrite !get_step. do 2 f_equal.
    change 0x0F with (Z.ones 4). change 0x3F with (Z.ones 6).
    rewrite !mask_lead by (zpow; try lia; reflexivity).
    rewrite !Z.shiftl_mul_pow2 by lia.
    rewrite (lor_low x 12) by (zpow; lia).
    replace (x * 2^12 + y * 2^6) with ((x * 64 + y) * 2^6) by (zpow; lia).
    rewrite lor_low by (zpow; lia). zpow. lia. }
  { assert (c / 262144 < 5) by lia.
    cbn [app rev]. unfold take_character. rewrite peek_step.
    set (x := c / 262144) in *. set (y := c / 4096 mod 64) in *. set (z := c / 64 mod 64) in *.
    set (w := c mod 64) in *.
    replace ((0xF0 + x =? eof) || ((0 <=? 0xF0 + x) && (0xF0 + x <=? 127))) with false by (unfold eof; lia).
    replace ((194 <=? 0xF0 + x) && (0xF0 + x <=? 223)) with false by lia.
    replace ((0xE0 <=? 0xF0 + x) && (0xF0 + x <=? 0xEF)) with false by lia.
    replace ((0xF0 <=? 0xF0 + x) && (0xF0 + x <=? 0xF4)) with true by lia.
    rewrite !get_step. do 2 f_equal.
    change 0x07 with (Z.ones 3). change 0x3F with (Z.ones 6).
    rewrite !mask_lead by (zpow; try lia; reflexivity).
    rewrite !Z.shiftl_mul_pow2 by lia.
    rewrite (lor_low x 18) by (zpow; lia).
    replace (x * 2^18 + y * 2^12) with ((x * 64 + y) * 2^12) by (zpow; lia).
    rewrite (lor_low _ 12) by (zpow; lia).
    replace ((x * 64 + y) * 2^12 + z * 2^6) with (((x * 64 + y) * 64 + z) * 2^6) by (zpow; lia).
    rewrite lor_low by (zpow; lia). zpow. lia. }
Qed.

Lemma putback_all : forall bs bh r,
  fold_left (fun s b => i_putback b s) bs (at_ (bs ++ bh) r) = at_ bh (rev bs ++ r).
Proof.
  induction bs as [|b bs IH]; intros; [reflexivity|].
  cbn [fold_left app rev]. unfold i_putback at 2. cbn. rewrite Z.eqb_refl.
  fold (at_ (bs ++ bh) (b :: r)). rewrite IH, <- app_assoc. reflexivity.
Qed.

Lemma peek_utf8 : forall c bh r, codepoint c ->
  peek_character (at_ bh (rfc3629 c ++ r)) = (Char c, at_ bh (rfc3629 c ++ r)).
Proof.
  intros. unfold peek_character. rewrite take_utf8 by assumption.
  rewrite utf8_is_rfc by assumption. rewrite putback_all, rev_involutive. reflexivity.
Qed.

(** ** The end of the port *)
(** A stream that has run out: no bytes ahead, whatever its state bits *)
Definition spent (s : istream) : Prop := ahead s = [] /\ (good s = true \/ usable s = false).

Lemma take_spent : forall s, spent s -> exists s', take_character s = (Char eof, s') /\ spent s' /\ usable s' = false.
Proof.
  intros [a b e f x] [Ha Hg]. cbn in Ha. subst a.
  destruct e, f, x; cbn in Hg; try (destruct Hg; discriminate);
    eexists; (split; [reflexivity|split; [split; [reflexivity|right; reflexivity]|reflexivity]]).
Qed.
Lemma putback_fail : forall b s, usable s = false ->
  ahead (i_putback b s) = ahead s /\ usable (i_putback b s) = false.
Proof.
  intros b [a bh e f x] H. unfold i_putback, usable, good in *. cbn in *.
  destruct f, x; cbn in *; try discriminate; auto.
Qed.
Lemma peek_spent : forall s, spent s -> exists s', peek_character s = (Char eof, s') /\ spent s'.
Proof.
  intros s H. unfold peek_character. destruct (take_spent s H) as (s' & -> & [Ha Hb] & Hu).
  eexists. split; [reflexivity|]. change (rev (utf8 eof)) with [0x7F]. cbn [fold_left].
  destruct (putback_fail 0x7F s' Hu) as [E1 E2]. split; [congruence|right; exact E2].
Qed.

(** ** Specification of the reading procedures on a port seen as a sequence of
    characters *)
Fixpoint first_line (cs : list Z) : list Z * list Z :=
  match cs with
  | [] => ([], [])
  | c :: r => if c =? 10 then ([], r) else let '(l, r) := first_line r in (c :: l, r)
  end.
Definition spec_op (op : read_op) (cs : list Z) : result * list Z :=
  match op, cs with
  | _, [] => (Eof_object, [])
  | Read_char, c :: r => (A_char c, r)
  | Peek_char, c :: r => (A_char c, c :: r)
  | Read_string k, _ => (A_string (firstn k cs), skipn k cs)
  | Read_line, _ => let '(l, r) := first_line cs in (A_string l, r)
  end.
Fixpoint spec_ops (ops : list read_op) (cs : list Z) : list result * list Z :=
  match ops with
  | [] => ([], cs)
  | op :: ops => let '(r, cs) := spec_op op cs in
                 let '(rs, cs) := spec_ops ops cs in (r :: rs, cs)
  end.

(** A port whose remaining characters are [cs] *)
Definition holds (s : istream) (cs : list Z) : Prop :=
  (exists bh, s = at_ bh (text cs)) \/ (cs = [] /\ spent s).

Lemma holds_nil_spent : forall s, holds s [] -> spent s.
Proof. intros s [[bh ->]|[_ H]]; [split; [reflexivity|left; reflexivity]|exact H]. Qed.

Lemma eof_not_cp : forall c, codepoint c -> (c =? eof) = false.
Proof. unfold codepoint, eof. intros. lia. Qed.

Lemma take_holds : forall s c cs, codepoint c -> holds s (c :: cs) ->
  exists s', take_character s = (Char c, s') /\ holds s' cs /\ good s' = true.
Proof.
  intros s c cs Hc [[bh ->]|[H _]]; [|discriminate].
  unfold text. cbn [flat_map]. rewrite take_utf8 by assumption.
  eexists. split; [reflexivity|]. split; [left; eexists; reflexivity|reflexivity].
Qed.
Lemma peek_holds : forall s c cs, codepoint c -> holds s (c :: cs) ->
  peek_character s = (Char c, s).
Proof.
  intros s c cs Hc [[bh ->]|[H _]]; [|discriminate].
  unfold text. cbn [flat_map]. apply peek_utf8. assumption.
Qed.

Lemma get_loop_holds : forall k s cs acc, Forall codepoint cs -> holds s cs ->
  exists s', get_loop k s acc = (A_string (acc ++ firstn k cs), s') /\ holds s' (skipn k cs).
Proof.
  induction k as [|k IH]; intros s cs acc Hcs Hs.
  { exists s. cbn. rewrite app_nil_r. auto. }
  destruct cs as [|c cs].
  { destruct (peek_spent s (holds_nil_spent s Hs)) as (s' & E & Hs').
    exists s'. cbn [get_loop]. rewrite E. cbn. rewrite app_nil_r. split; [reflexivity|right; auto]. }
  inversion Hcs; subst.
  cbn [get_loop]. erewrite peek_holds by eassumption. rewrite eof_not_cp by assumption.
  destruct (take_holds s c cs) as (s' & -> & Hs' & _); try assumption.
  destruct (IH s' cs (acc ++ [c])) as (s'' & -> & Hs''); try assumption.
  exists s''. cbn [firstn skipn]. rewrite <- app_assoc. auto.
Qed.

(** *** Lines *)
Definition ascii_line (cs : list Z) : Prop :=
  exists l r, cs = l ++ 10 :: r /\ Forall (fun c => 0 < c < 0x80) l /\ ~ In 10 l.
Lemma first_line_app : forall l r, ~ In 10 l -> first_line (l ++ 10 :: r) = (l, r).
Proof.
  induction l as [|c l IH]; intros r H; [reflexivity|].
  cbn [app first_line]. destruct (Z.eqb_spec c 10); [subst; cbn in H; tauto|].
  rewrite IH by (cbn in H; tauto). reflexivity.
Qed.
Lemma rfc_ascii : forall c, 0 < c < 0x80 -> rfc3629 c = [c].
Proof. intros. unfold rfc3629. destruct (Z.ltb_spec c 0x80); [reflexivity|lia]. Qed.
Lemma text_ascii : forall l, Forall (fun c => 0 < c < 0x80) l -> text l = l.
Proof.
  induction 1; [reflexivity|]. unfold text in *. cbn [flat_map]. rewrite rfc_ascii by assumption.
  cbn. congruence.
Qed.

Lemma until_line : forall l r bh fuel acc, Forall (fun c => 0 < c < 0x80) l -> ~ In 10 l ->
  (length l < fuel)%nat ->
  exists bh', until_newline fuel (at_ bh (text (l ++ 10 :: r))) acc = Some (Some (acc ++ l), at_ bh' (text r)).
Proof.
  induction l as [|c l IH]; intros r bh fuel acc Hl Hn Hf; destruct fuel as [|fuel]; try (cbn in Hf; lia).
  - cbn [app until_newline]. unfold usable. cbn [failbit badbit at_ orb negb].
    change (text (10 :: r)) with (rfc3629 10 ++ text r).
    rewrite take_utf8 by (unfold codepoint; lia). cbn. rewrite app_nil_r. eexists. reflexivity.
  - inversion Hl; subst. cbn in Hn. assert (c <> 10) by tauto.
    cbn [app until_newline]. unfold usable. cbn [failbit badbit at_ orb negb].
    change (text (c :: l ++ 10 :: r)) with (rfc3629 c ++ text (l ++ 10 :: r)).
    rewrite take_utf8 by (unfold codepoint; lia).
    destruct (Z.eqb_spec c 10); [lia|].
    unfold char_of. rewrite Z.mod_small by lia.
    destruct (IH r (rev (rfc3629 c) ++ bh) fuel (acc ++ [c])) as [bh' ->]; try assumption; try tauto;
      [cbn in Hf; lia|].
    exists bh'. rewrite <- app_assoc. reflexivity.
Qed.

Lemma decode_text : forall cs bh fuel acc, Forall codepoint cs -> (length cs < fuel)%nat ->
  decode_loop fuel (at_ bh (text cs)) acc = A_string (acc ++ cs).
Proof.
  induction cs as [|c cs IH]; intros bh fuel acc Hcs Hf; destruct fuel as [|fuel]; try (cbn in Hf; lia).
  - cbn. rewrite app_nil_r. reflexivity.
  - inversion Hcs; subst. cbn [decode_loop].
    change (text (c :: cs)) with (rfc3629 c ++ text cs).
    rewrite take_utf8 by assumption. rewrite eof_not_cp by assumption.
    rewrite IH; try assumption; [|cbn in Hf; lia]. rewrite <- app_assoc. reflexivity.
Qed.
Lemma rfc_length : forall c, (1 <= length (rfc3629 c))%nat.
Proof. intros. unfold rfc3629. repeat destruct (_ <? _); cbn; lia. Qed.
Lemma text_length : forall cs, (length cs <= length (text cs))%nat.
Proof.
  induction cs as [|c cs IH]; [cbn; lia|].
  change (text (c :: cs)) with (rfc3629 c ++ text cs). rewrite app_length.
  pose proof (rfc_length c). cbn [length]. lia.
Qed.
Lemma make_string_text : forall cs, Forall codepoint cs -> make_string (text cs) = A_string cs.
Proof.
  intros cs H. unfold make_string, stream_of. fold (at_ [] (text cs)).
  rewrite decode_text; [reflexivity|assumption|]. pose proof (text_length cs). lia.
Qed.

Lemma get_line_holds : forall s cs, holds s cs -> ascii_line cs ->
  exists l r, first_line cs = (l, r) /\ exists s', p_get_line s = (A_string l, s') /\ holds s' r.
Proof.
  intros s cs [[bh ->]|[-> _]] (l & r & E & Hl & Hn).
  2:{ destruct l; discriminate. }
  subst cs. exists l, r. split; [apply first_line_app; assumption|].
  unfold p_get_line. cbn [ahead at_].
  destruct (until_line l r bh (S (S (length (text (l ++ 10 :: r))))) []) as [bh' E]; try assumption.
  { pose proof (text_length (l ++ 10 :: r)). rewrite app_length in *. cbn in *. lia. }
  fold (at_ bh (text (l ++ 10 :: r))). rewrite E. cbn [eofbit at_ app].
  eexists. split; [|left; eexists; reflexivity].
  f_equal. rewrite <- (text_ascii l) at 1 by assumption. apply make_string_text.
  eapply Forall_impl; [|exact Hl]. unfold codepoint. intros. lia.
Qed.

(** ** Refinement *)
(** The reads for which the property is proved: read-line only where the rest of
    the port starts with an ASCII line that has its newline *)
Fixpoint allowed (ops : list read_op) (cs : list Z) : Prop :=
  match ops with
  | [] => True
  | op :: ops => match op with Read_line => ascii_line cs | _ => True end
                 /\ allowed ops (snd (spec_op op cs))
  end.

Lemma op_holds : forall op s cs, Forall codepoint cs -> holds s cs ->
  match op with Read_line => ascii_line cs | _ => True end ->
  exists s', run_op op s = (fst (spec_op op cs), s') /\ holds s' (snd (spec_op op cs)).
Proof.
  intros op s cs Hcs Hs Ha.
  destruct op as [| |k|].
  - destruct cs as [|c cs].
    + destruct (take_spent s (holds_nil_spent s Hs)) as (s' & E & Hs' & _).
      exists s'. cbn. unfold p_get. rewrite E. cbn. split; [reflexivity|right; auto].
    + inversion Hcs; subst. destruct (take_holds s c cs) as (s' & E & Hs' & _); try assumption.
      exists s'. cbn. unfold p_get. rewrite E, eof_not_cp by assumption. auto.
  - destruct cs as [|c cs].
    + destruct (peek_spent s (holds_nil_spent s Hs)) as (s' & E & Hs').
      exists s'. cbn. unfold p_peek. rewrite E. cbn. split; [reflexivity|right; auto].
    + inversion Hcs; subst. exists s. cbn [run_op spec_op fst snd]. unfold p_peek. erewrite peek_holds by eassumption.
      rewrite eof_not_cp by assumption. auto.
  - destruct cs as [|c cs].
    + destruct (peek_spent s (holds_nil_spent s Hs)) as (s' & E & Hs').
      exists s'. cbn. unfold p_get_string. rewrite E. cbn. split; [reflexivity|right; auto].
    + inversion Hcs; subst. cbn [run_op spec_op fst snd]. unfold p_get_string.
      erewrite peek_holds by eassumption. rewrite eof_not_cp by assumption.
      destruct (get_loop_holds k s (c :: cs) []) as (s' & E & Hs'); try assumption.
      exists s'. rewrite E. auto.
  - destruct (get_line_holds s cs Hs Ha) as (l & r & El & s' & E & Hs').
    exists s'. cbn [run_op]. rewrite E.
    destruct cs as [|c cs]; [destruct Ha as (l0 & ? & ? & _); destruct l0; discriminate|].
    cbn [spec_op]. rewrite El. auto.
Qed.

Lemma spec_op_cp : forall op cs, Forall codepoint cs -> Forall codepoint (snd (spec_op op cs)).
Proof.
  intros op cs H.
  assert (Hl : forall cs, Forall codepoint cs -> Forall codepoint (snd (first_line cs))).
  { clear. induction cs as [|c cs IH]; intros H; [exact H|]. inversion H; subst.
    cbn. destruct (c =? 10); [assumption|]. specialize (IH H3). destruct (first_line cs). exact IH. }
  destruct op, cs; cbn [spec_op snd]; try constructor; inversion H; subst; try assumption.
  - rewrite <- (firstn_skipn k (z :: cs)) in H. apply Forall_app in H. tauto.
  - specialize (Hl _ H). destruct (first_line (z :: cs)). exact Hl.
Qed.

Lemma ops_hold : forall ops s cs, Forall codepoint cs -> holds s cs -> allowed ops cs ->
  exists s', run_ops ops s = (fst (spec_ops ops cs), s') /\ holds s' (snd (spec_ops ops cs)).
Proof.
  induction ops as [|op ops IH]; intros s cs Hcs Hs Ha.
  { exists s. split; [reflexivity|exact Hs]. }
  destruct Ha as [Ha1 Ha2].
  destruct (op_holds op s cs Hcs Hs Ha1) as (s1 & E1 & Hs1).
  destruct (IH s1 (snd (spec_op op cs)) (spec_op_cp op cs Hcs) Hs1 Ha2) as (s2 & E2 & Hs2).
  exists s2. cbn [run_ops spec_ops]. rewrite E1, E2.
  destruct (spec_op op cs) as [r1 cs1]. cbn [fst snd] in *.
  destruct (spec_ops ops cs1). auto.
Qed.

(** Reading everything, one character at a time *)
Fixpoint read_all (n : nat) (s : istream) : list Z :=
  match n with
  | O => []
  | S n => match p_get s with
           | (A_char c, s) => c :: read_all n s
           | _ => []
           end
  end.
Lemma read_all_text : forall cs bh n, Forall codepoint cs -> (length cs < n)%nat ->
  read_all n (at_ bh (text cs)) = cs.
Proof.
  induction cs as [|c cs IH]; intros bh n Hcs Hn; destruct n as [|n]; try (cbn in Hn; lia).
  - reflexivity.
  - inversion Hcs; subst. cbn [read_all]. change (text (c :: cs)) with (rfc3629 c ++ text cs).
    unfold p_get. rewrite take_utf8 by assumption. rewrite eof_not_cp by assumption.
    rewrite IH; [reflexivity|assumption|cbn in Hn; lia].
Qed.
Lemma string_utf8_text : forall cs, Forall codepoint cs -> string_utf8 cs = text cs.
Proof.
  induction 1; [reflexivity|]. cbn [string_utf8 text flat_map] in *. rewrite utf8_is_rfc by assumption.
  unfold string_utf8, text in *. congruence.
Qed.

(** The characters delivered by a history, with newlines put back after lines *)
Definition delivered (op : read_op) (r : result) : list Z :=
  match op, r with
  | Read_char, A_char c => [c]
  | Read_string _, A_string cs => cs
  | Read_line, A_string cs => cs ++ [10]
  | _, _ => []
  end.
Fixpoint all_delivered (ops : list read_op) (rs : list result) : list Z :=
  match ops, rs with
  | op :: ops, r :: rs => delivered op r ++ all_delivered ops rs
  | _, _ => []
  end.
Lemma spec_delivers : forall ops cs, allowed ops cs ->
  all_delivered ops (fst (spec_ops ops cs)) ++ snd (spec_ops ops cs) = cs.
Proof.
  induction ops as [|op ops IH]; intros cs Ha; [reflexivity|].
  destruct Ha as [Ha1 Ha2]. specialize (IH _ Ha2). cbn [spec_ops].
  destruct (spec_op op cs) as [r cs1] eqn:E. cbn [snd] in IH.
  destruct (spec_ops ops cs1) as [rs cs2]. cbn [fst snd] in *. cbn [all_delivered].
  rewrite <- app_assoc, IH.
  destruct op, cs as [|c cs]; cbn [spec_op] in E; try (inversion E; subst; reflexivity).
  - inversion E; subst. cbn [delivered]. apply (firstn_skipn k (c :: cs)).
  - destruct Ha1 as (l & r0 & El & _ & Hn). rewrite El in *. rewrite first_line_app in E by assumption.
    inversion E; subst. cbn [delivered]. rewrite <- app_assoc. reflexivity.
Qed.

(** ** Progress: reading never loops, whatever the bytes are *)
Definition energy (s : istream) : nat := length (ahead s) + (if usable s then 1 else 0).

Lemma get_energy : forall s, (length (ahead (snd (i_get s))) <= length (ahead s))%nat
  /\ (energy (snd (i_get s)) <= energy s)%nat.
Proof.
  intros [a b e f x]. unfold i_get, energy, good, usable.
  destruct e, f, x, a; cbn; lia.
Qed.
Lemma get_energy_lt : forall s, usable s = true -> (energy (snd (i_get s)) < energy s)%nat.
Proof.
  intros [a b e f x]. unfold i_get, energy, good, usable.
  destruct e, f, x, a; cbn; try discriminate; lia.
Qed.
Lemma peek_energy : forall s, (energy (snd (i_peek s)) <= energy s)%nat /\
  (fst (i_peek s) <> eof -> snd (i_peek s) = s) /\
  (usable s = true -> energy (snd (i_peek s)) = energy s -> usable (snd (i_peek s)) = true).
Proof.
  intros [a b e f x]. unfold i_peek, energy, good, usable, with_fail, eof.
  destruct e, f, x, a; cbn; (split; [lia|split; [auto; congruence|try discriminate; auto; lia]]).
Qed.

Lemma take_energy : forall s c s', usable s = true -> take_character s = (Char c, s') ->
  (energy s' < energy s)%nat.
Proof.
  intros s c s' Hu. unfold take_character.
  pose proof (peek_energy s) as (P1 & P2 & P3). destruct (i_peek s) as [p s0]. cbn [fst snd] in *.
  assert (G : (energy (snd (i_get s0)) < energy s)%nat).
  { destruct (Nat.eq_dec (energy s0) (energy s)).
    - pose proof (get_energy_lt s0 (P3 Hu e)). lia.
    - pose proof (get_energy s0). lia. }
  destruct ((p =? eof) || _).
  { destruct (i_get s0) as [b s1]. intros [= <- <-]. exact G. }
  destruct (_ && _).
  { pose proof (get_energy (snd (i_get s0))).
    destruct (i_get s0) as [b s1]. cbn [snd] in *. destruct (i_get s1) as [b1 s2].
    cbn [snd] in *. intros [= <- <-]. lia. }
  destruct (_ && _).
  { pose proof (get_energy (snd (i_get s0))). pose proof (get_energy (snd (i_get (snd (i_get s0))))).
    destruct (i_get s0) as [b s1]. cbn [snd] in *. destruct (i_get s1) as [b1 s2]. cbn [snd] in *.
    destruct (i_get s2) as [b2 s3]. cbn [snd] in *. intros [= <- <-]. lia. }
  destruct (_ && _); [|discriminate].
  { pose proof (get_energy (snd (i_get s0))). pose proof (get_energy (snd (i_get (snd (i_get s0))))).
    pose proof (get_energy (snd (i_get (snd (i_get (snd (i_get s0))))))).
    destruct (i_get s0) as [b s1]. cbn [snd] in *. destruct (i_get s1) as [b1 s2]. cbn [snd] in *.
    destruct (i_get s2) as [b2 s3]. cbn [snd] in *. destruct (i_get s3) as [b3 s4]. cbn [snd] in *.
    intros [= <- <-]. lia. }
Qed.

Lemma until_newline_enough : forall fuel s acc, (energy s < fuel)%nat -> until_newline fuel s acc <> None.
Proof.
  induction fuel as [|fuel IH]; intros s acc H; [lia|].
  cbn [until_newline]. destruct (usable s) eqn:Hu; [|discriminate].
  destruct (take_character s) as [[c|] s'] eqn:E; [|discriminate].
  destruct (c =? 10); [discriminate|]. apply IH.
  pose proof (take_energy s c s' Hu E). lia.
Qed.
Lemma take_not_usable : forall s, usable s = false -> exists s', take_character s = (Char eof, s').
Proof.
  intros [a b e f x] H. unfold usable in H. cbn in H.
  destruct e, f, x; try discriminate; eexists; reflexivity.
Qed.
Lemma decode_loop_enough : forall fuel s acc, (energy s < fuel)%nat -> decode_loop fuel s acc <> No_fuel.
Proof.
  induction fuel as [|fuel IH]; intros s acc H; [lia|].
  cbn [decode_loop]. destruct (usable s) eqn:Hu.
  - destruct (take_character s) as [[c|] s'] eqn:E; [|discriminate].
    destruct (c =? eof); [discriminate|]. apply IH. pose proof (take_energy s c s' Hu E). lia.
  - destruct (take_not_usable s Hu) as [s' ->]. discriminate.
Qed.
(** One unit of fuel less is enough because the last character read is eof *)
Lemma take_eof_or_shorter : forall s c s', usable s = true -> take_character s = (Char c, s') ->
  c = eof \/ (length (ahead s') < length (ahead s))%nat.
Proof.
  intros [a b e f x] c s' Hu. unfold usable in Hu. cbn in Hu.
  destruct f, x; try discriminate. clear Hu.
  destruct e. { cbn. intros [= <- <-]. auto. }
  destruct a as [|b0 a]. { cbn. intros [= <- <-]. auto. }
  unfold take_character. fold (at_ b (b0 :: a)). rewrite peek_step, get_step.
  destruct ((b0 =? eof) || _). { intros [= <- <-]. right. cbn. lia. }
  intros H. right. cbn [ahead at_ length].
  pose proof (get_energy (at_ (b0 :: b) a)) as [G1 _].
  destruct (_ && _) in H.
  { destruct (i_get (at_ (b0 :: b) a)) as [b1 s1]. injection H as <- <-. cbn [snd ahead at_] in *. lia. }
  destruct (_ && _) in H.
  { destruct (i_get (at_ (b0 :: b) a)) as [b1 s1]. pose proof (get_energy s1) as [G2 _].
    destruct (i_get s1) as [b2 s2]. injection H as <- <-. cbn [snd ahead at_] in *. lia. }
  destruct (_ && _) in H; [|discriminate].
  { destruct (i_get (at_ (b0 :: b) a)) as [b1 s1]. pose proof (get_energy s1) as [G2 _].
    destruct (i_get s1) as [b2 s2]. pose proof (get_energy s2) as [G3 _].
    destruct (i_get s2) as [b3 s3]. injection H as <- <-. cbn [snd ahead at_] in *. lia. }
Qed.
Lemma decode_loop_enough' : forall fuel s acc, (length (ahead s) < fuel)%nat -> decode_loop fuel s acc <> No_fuel.
Proof.
  induction fuel as [|fuel IH]; intros s acc H; [lia|].
  cbn [decode_loop]. destruct (usable s) eqn:Hu.
  - destruct (take_character s) as [[c|] s'] eqn:E; [|discriminate].
    destruct (Z.eqb_spec c eof); [discriminate|]. apply IH.
    destruct (take_eof_or_shorter s c s' Hu E); [tauto|lia].
  - destruct (take_not_usable s Hu) as [s' ->]. discriminate.
Qed.
Lemma get_loop_fuel : forall k s acc, fst (get_loop k s acc) <> No_fuel.
Proof.
  induction k as [|k IH]; intros; cbn [get_loop]; [discriminate|].
  destruct (peek_character s) as [[c|] s1]; [|discriminate].
  destruct (c =? eof); [discriminate|]. destruct (take_character s1) as [[c2|] s2]; [|discriminate]. apply IH.
Qed.
Lemma run_op_fuel : forall op s, fst (run_op op s) <> No_fuel.
Proof.
  intros [| |k|] s; cbn [run_op].
  - unfold p_get. destruct (take_character s) as [[c|] s1]; [|discriminate]. destruct (c =? eof); discriminate.
  - unfold p_peek. destruct (peek_character s) as [[c|] s1]; [|discriminate]. destruct (c =? eof); discriminate.
  - unfold p_get_string. destruct (peek_character s) as [[c|] s1]; [|discriminate].
    destruct (c =? eof); [discriminate|]. apply get_loop_fuel.
  - unfold p_get_line.
    pose proof (until_newline_enough (S (S (length (ahead s)))) s []) as U.
    destruct (until_newline _ s []) as [[[bs|] s1]|].
    + destruct (eofbit s1); [discriminate|]. cbn [fst]. apply decode_loop_enough'. cbn. lia.
    + discriminate.
    + exfalso. apply U; [|reflexivity]. unfold energy. destruct (usable s); lia.
Qed.

(** A lead byte that RFC 3629 never uses is rejected and not consumed *)
Lemma bad_lead : forall bh b r, 0x80 <= b < 0xC2 \/ 0xF5 <= b < 0x100 ->
  take_character (at_ bh (b :: r)) = (ReadError, at_ bh (b :: r)).
Proof.
  intros bh b r H. unfold take_character. rewrite peek_step.
  replace ((b =? eof) || _) with false by (unfold eof; lia).
  replace ((194 <=? b) && (b <=? 223)) with false by lia.
  replace ((0xE0 <=? b) && (b <=? 0xEF)) with false by lia.
  replace ((0xF0 <=? b) && (b <=? 0xF4)) with false by lia. reflexivity.
Qed.
