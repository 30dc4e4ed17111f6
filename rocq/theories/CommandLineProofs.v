(** The command line (Configuration.v) against its specification (CommandLineSpec.v). *)
From Coq Require Import String ZArith List Bool Lia ZifyBool.
From Verif Require Import NumberText Writer Reader Configuration CommandLineSpec.
Import ListNotations.
Open Scope Z_scope.

(** ** Regular expressions *)
Lemma many_all {A} p u (k : list Z -> option A) a : forallb p u = true -> k [] = Some a -> many p u k = Some a.
Proof.
  intros H K. induction u as [|c u IH]; cbn [many]; [exact K|]. cbn [forallb] in H. apply andb_true_iff in H as [Hc H]. rewrite Hc, (IH H). reflexivity.
Qed.
Lemma many_stop {A} p u c v (k : list Z -> option A) a : forallb p u = true -> p c = false -> k (c :: v) = Some a -> many p (u ++ c :: v) k = Some a.
Proof.
  intros H C K. induction u as [|x u IH]; cbn [many app]; [rewrite C; exact K|]. cbn [forallb] in H. apply andb_true_iff in H as [Hx H]. rewrite Hx, (IH H). reflexivity.
Qed.
Lemma firstn_front {A} (u v : list A) : firstn (length (u ++ v) - length v) (u ++ v) = u.
Proof. rewrite app_length. replace (length u + length v - length v)%nat with (length u) by lia. rewrite firstn_app, firstn_all, Nat.sub_diag. cbn [firstn]. apply app_nil_r. Qed.
Lemma firstn_whole {A} (u : list A) : firstn (length u - @length A []) u = u.
Proof. cbn [length]. rewrite Nat.sub_0_r. apply firstn_all. Qed.

Lemma literally_ok s : forall rest c k, matcher (literally s) (s ++ rest) c k = k rest c.
Proof. induction s as [|x s IH]; intros rest c k; cbn [literally matcher app]; [reflexivity|]. rewrite Z.eqb_refl. apply IH. Qed.
Lemma literally_only s : forall t c k m, matcher (literally s) t c k = Some m -> exists rest, t = s ++ rest /\ k rest c = Some m.
Proof.
  induction s as [|x s IH]; intros t c k m H; cbn [literally matcher] in H; [exists t; auto|].
  destruct t as [|y t]; [discriminate|]. destruct (x =? y) eqn:E; [|discriminate]. apply Z.eqb_eq in E. subst y.
  destruct (IH _ _ _ _ H) as (rest & -> & K). exists rest. auto.
Qed.

(** The names of an option are what its pattern matches *)
Lemma option_matches o n m : regex_match (option_pattern o) n = Some m -> n = long o \/ exists c, letter o = Some c /\ n = [c].
Proof.
  unfold regex_match, option_pattern. destruct (letter o) as [c|]; intros H.
  - cbn [matcher] in H. set (k := fun _ _ => _) in H. destruct (matcher (literally [c]) n none k) eqn:E1.
    + right. exists c. split; [reflexivity|]. destruct (literally_only _ _ _ _ _ E1) as (rest & -> & K). subst k. cbn beta in K. destruct rest; [reflexivity|discriminate].
    + left. destruct (literally_only _ _ _ _ _ H) as (rest & -> & K). subst k. cbn beta in K. destruct rest; [apply app_nil_r|discriminate].
  - left. destruct (literally_only _ _ _ _ _ H) as (rest & -> & K). cbn beta in K. destruct rest; [apply app_nil_r|discriminate].
Qed.
Lemma evaluator_long k : evaluator (long_name k) = Some k.
Proof. destruct k; vm_compute; reflexivity. Qed.
Lemma evaluator_short k c : short_name k = Some c -> evaluator [c] = Some k.
Proof. destruct k; intros E; inversion E; subst c; vm_compute; reflexivity. Qed.
Lemma options_documented o : In o options -> long o = long_name (kind o) /\ letter o = short_name (kind o).
Proof. intros I. repeat (destruct I as [<-|I]; [split; reflexivity|]). destruct I. Qed.
Lemma evaluator_none n : (forall k, long_name k <> n) -> (forall k c, n = [c] -> short_name k <> Some c) -> evaluator n = None.
Proof.
  intros L Hs. unfold evaluator. destruct (find _ options) as [o|] eqn:F; [exfalso|reflexivity]. apply find_some in F as [I M].
  destruct (regex_match (option_pattern o) n) eqn:R; [|discriminate]. destruct (options_documented o I) as [El Es].
  destruct (option_matches _ _ _ R) as [->|(cc & E & ->)]; [apply (L (kind o)); auto|eapply Hs; [reflexivity|rewrite <- Es; exact E]].
Qed.

(** ** The pattern of an argument *)
Definition name_chars (n : list Z) : Prop := exists c d cs, n = c :: d :: cs /\ word_char c = true /\ word_or_hyphen d = true /\ forallb word_or_hyphen cs = true.
Lemma match_long n : name_chars n -> exists m, regex_match pattern (codes "--" ++ n) = Some m /\ m 1%nat = n /\ m 2%nat = [] /\ m 3%nat = [].
Proof.
  intros (c & d & cs & -> & Hc & Hd & Hs). unfold regex_match, pattern. cbn [matcher]. rewrite literally_ok. unfold some. cbn [matcher]. rewrite Hc, Hd.
  erewrite (many_all _ cs _ _ Hs); [|cbn [literally matcher codes]; reflexivity].
  eexists. split; [reflexivity|]. unfold capture, none. cbn [Nat.eqb]. rewrite firstn_whole. auto.
Qed.
Lemma match_equals n v : name_chars n -> forallb dot v = true -> exists m, regex_match pattern (codes "--" ++ n ++ codes "=" ++ v) = Some m /\ m 1%nat = n /\ m 2%nat = v /\ m 3%nat = [].
Proof.
  intros (c & d & cs & -> & Hc & Hd & Hs) V. unfold regex_match, pattern. cbn [matcher]. rewrite literally_ok. unfold some. cbn [matcher app]. rewrite Hc, Hd.
  change (codes "=") with [61]. cbn [app]. erewrite (many_stop _ cs 61 v _ _ Hs eq_refl); [|cbn beta; cbn [literally matcher]; rewrite Z.eqb_refl; erewrite (many_all _ v _ _ V); reflexivity].
  eexists. split; [reflexivity|]. unfold capture, none. cbn [Nat.eqb]. rewrite firstn_whole. repeat split.
  change (c :: d :: cs ++ 61 :: v) with ((c :: d :: cs) ++ 61 :: v). apply firstn_front.
Qed.
Lemma match_short c cs : forallb word_char (c :: cs) = true -> exists m, regex_match pattern (45 :: c :: cs) = Some m /\ m 3%nat = c :: cs.
Proof.
  intros H. cbn [forallb] in H. apply andb_true_iff in H as [Hc Hs]. unfold regex_match, pattern. cbn [matcher]. change (codes "--") with [45; 45]. change (codes "-") with [45].
  cbn [literally matcher]. rewrite Z.eqb_refl. replace (45 =? c) with false by (unfold word_char in Hc; lia). unfold some. cbn [matcher]. rewrite Hc.
  erewrite (many_all _ cs _ _ Hs); [|cbn beta; reflexivity]. eexists. split; [reflexivity|]. unfold capture. cbn [Nat.eqb]. apply firstn_whole.
Qed.
Lemma match_file path : hd 0 path <> 45 -> regex_match pattern path = None.
Proof.
  intros H. unfold regex_match, pattern. cbn [matcher]. change (codes "--") with [45; 45]. change (codes "-") with [45]. cbn [literally matcher].
  destruct path as [|c path]; [reflexivity|]. cbn [hd] in H. replace (45 =? c) with false by lia. reflexivity.
Qed.

Lemma long_name_chars k : name_chars (long_name k).
Proof. destruct k; (eexists _, _, _; split; [reflexivity|vm_compute; auto]). Qed.
Lemma alphanumeric_ok c : alphanumeric c -> word_char c = true.
Proof. unfold alphanumeric, word_char. lia. Qed.
Lemma short_name_ok k c : short_name k = Some c -> word_char c = true.
Proof. destruct k; intros E; inversion E; subst c; reflexivity. Qed.
Lemma one_line_ok v : one_line v -> forallb dot v = true.
Proof. intros H. apply forallb_forall. intros c I. destruct (H c I). unfold dot. lia. Qed.

(** ** One argument *)
Section Run.
  Context {W : Type}.
  Variable perform : action -> W -> outcome unit * W.
  Variable reads : list Z -> reading.
  Variable external : datum -> list Z.
  Notation evaluate := (evaluate perform external).
  Notation argument := (argument perform reads external).
  Notation letters := (letters perform reads external).
  Notation loop := (loop perform reads external).
  Notation means := (means perform reads external).
  Notation all := (all perform reads external).

  Definition then_rest (r : outcome unit * W) (rest : args) : outcome args * W :=
    match r with
    | (Normal _, w) => (Normal rest, w)
    | (o, w) => (halt o, w)
    end.
  Lemma evaluate_next k operand rest w : supplied k operand ->
    evaluate k (read_next reads) (operands [(k, operand)] ++ rest) w = then_rest (means (Use k operand) w) rest.
  Proof.
    unfold supplied. intros S. destruct operand as [t|].
    - cbn [operands flat_map snd app]. destruct k; try discriminate S; cbn [Configuration.evaluate read_next with_datum means action_of]; unfold read_operand;
        destruct (reads t) as [d| | | | | |]; cbn [then_rest halt with_datum]; try reflexivity. destruct d; reflexivity.
    - destruct k; try discriminate S; reflexivity.
  Qed.
  Lemma evaluate_value k v rest w : takes_operand k = true -> evaluate k (read_value reads v) rest w = then_rest (means (Use k (Some v)) w) rest.
  Proof.
    intros S. destruct k; try discriminate S; cbn [Configuration.evaluate means action_of]; unfold read_value, read_operand;
      destruct (reads v) as [d| | | | | |]; cbn [then_rest halt with_datum]; try reflexivity. destruct d; reflexivity.
  Qed.

  Lemma all_app rs rs' w : all (rs ++ rs') w = match all rs w with (Normal _, w) => all rs' w | stopped => stopped end.
  Proof.
    revert w. induction rs as [|r rs IH]; intros w; cbn [CommandLineSpec.all app]; [reflexivity|]. destruct (means r w) as [[u| |n| |] w']; auto.
  Qed.
  Lemma letters_ok l cs : Forall2 (fun o c => short_name (fst o) = Some c) l cs -> Forall (fun o => supplied (fst o) (snd o)) l ->
    forall rest w, letters cs (operands l ++ rest) w = then_rest (all (map (fun o => Use (fst o) (snd o)) l) w) rest.
  Proof.
    intros F. induction F as [|[k o] c l cs E F IH]; intros S rest w; [reflexivity|]. inversion S as [|? ? S1 S2]; subst. cbn [fst snd] in *.
    cbn [Configuration.letters map CommandLineSpec.all fst snd]. rewrite (evaluator_short _ _ E).
    change (operands ((k, o) :: l)) with (operands [(k, o)] ++ operands l) || replace (operands ((k, o) :: l)) with (operands [(k, o)] ++ operands l) by (unfold operands; cbn [flat_map]; rewrite app_nil_r; reflexivity).
    rewrite <- app_assoc, (evaluate_next _ _ _ _ S1). destruct (means (Use k o) w) as [[u| |n| |] w']; cbn [then_rest halt]; try reflexivity. apply IH, S2.
  Qed.

  Lemma argument_ok rs ws : spelling rs ws -> exists a tl, ws = a :: tl /\ forall rest w, argument a (tl ++ rest) w = then_rest (all rs w) rest.
  Proof.
    intros H. destruct H as [l cs N F S|k o S|k v T N O|path N].
    - eexists _, _. split; [reflexivity|]. intros rest w. destruct F as [|x c l cs E F]; [contradiction|].
      assert (Fw : forallb word_char (c :: cs) = true).
      { cbn [forallb]. rewrite (short_name_ok _ _ E). cbn [andb]. clear -F. induction F as [|y d l cs E F IH]; [reflexivity|]. cbn [forallb]. rewrite (short_name_ok _ _ E). exact IH. }
      destruct (match_short c cs Fw) as (m & M & M3). unfold Configuration.argument. rewrite M, M3. cbn [length Nat.eqb negb].
      apply letters_ok; [constructor; assumption|exact S].
    - eexists _, _. split; [reflexivity|]. intros rest w. destruct (match_long _ (long_name_chars k)) as (m & M & M1 & M2 & M3).
      unfold Configuration.argument. rewrite M, M3, M2, M1, (evaluator_long k). cbn [length Nat.eqb negb].
      replace (negb (Nat.eqb (length (long_name k)) 0)) with true by (destruct k; reflexivity). rewrite (evaluate_next _ _ _ _ S).
      cbn [CommandLineSpec.all]. destruct (means (Use k o) w) as [[u| |n| |] w']; reflexivity.
    - eexists _, _. split; [reflexivity|]. intros rest w. destruct (match_equals _ v (long_name_chars k) (one_line_ok v O)) as (m & M & M1 & M2 & M3).
      unfold Configuration.argument. rewrite M, M3, M2, M1, (evaluator_long k). cbn [length Nat.eqb negb].
      replace (negb (Nat.eqb (length v) 0)) with true by (destruct v; [contradiction|reflexivity]). cbn [app]. rewrite (evaluate_value _ _ _ _ T).
      cbn [CommandLineSpec.all]. destruct (means (Use k (Some v)) w) as [[u| |n| |] w']; reflexivity.
    - eexists _, _. split; [reflexivity|]. intros rest w. unfold Configuration.argument. rewrite (match_file _ N). cbn [app CommandLineSpec.all CommandLineSpec.means]. unfold act.
      destruct (perform (Load_file path) w) as [[u| |n| |] w']; reflexivity.
  Qed.

  Lemma loop_ok rs ws : command_line rs ws -> forall more f w, (length (ws ++ more) <= f)%nat -> exists f', (length more <= f')%nat /\
    loop f (ws ++ more) w = match all rs w with (Normal _, w) => loop f' more w | stopped => stopped end.
  Proof.
    intros C. induction C as [|rs ws rs' ws' S C IH]; intros more f w Lf.
    - exists f. split; [exact Lf|reflexivity].
    - destruct (argument_ok _ _ S) as (a & tl & -> & A). rewrite <- app_assoc, <- app_comm_cons in *. destruct f as [|f]; [cbn [length] in Lf; lia|].
      cbn [Configuration.loop]. rewrite A. rewrite all_app. destruct (all rs w) as [[u| |n| |] w']; cbn [then_rest halt]; try (exists (length more); split; [lia|reflexivity]).
      apply IH. cbn [length] in Lf. rewrite app_length in Lf. lia.
  Qed.
  Lemma unknown_ok a : unknown_option a -> forall rest w, argument a rest w = (Raised, w).
  Proof.
    assert (Names : forall c d cs, alphanumeric c -> (forall x, In x (d :: cs) -> alphanumeric x \/ x = 45) -> name_chars (c :: d :: cs)).
    { intros c d cs Hc Hs. exists c, d, cs. split; [reflexivity|]. split; [apply alphanumeric_ok, Hc|].
      assert (G : forall x, In x (d :: cs) -> word_or_hyphen x = true).
      { intros x I. unfold word_or_hyphen. destruct (Hs x I) as [H| ->]; [rewrite (alphanumeric_ok x H); apply orb_true_r|reflexivity]. }
      split; [apply G; left; reflexivity|]. apply forallb_forall. intros x I. apply G. right. exact I. }
    intros U rest w. destruct U as [c cs H N|c d cs Hc Hs N|c d cs v Hc Hs N O].
    - assert (F : forallb word_char (c :: cs) = true) by (apply forallb_forall; intros x I; apply alphanumeric_ok, H, I).
      destruct (match_short c cs F) as (m & M & M3). unfold Configuration.argument. rewrite M, M3. cbn [length Nat.eqb negb Configuration.letters].
      rewrite evaluator_none; [reflexivity| |].
      + intros k E. destruct k; discriminate E.
      + intros k c' E. inversion E; subst c'. apply N.
    - destruct (match_long _ (Names _ _ _ Hc Hs)) as (m & M & M1 & M2 & M3). unfold Configuration.argument. rewrite M, M3, M2, M1. cbn [length Nat.eqb negb].
      rewrite evaluator_none; [reflexivity|exact N|intros k c' E; discriminate E].
    - destruct (match_equals _ v (Names _ _ _ Hc Hs) (one_line_ok v O)) as (m & M & M1 & M2 & M3). unfold Configuration.argument. rewrite M, M3, M2, M1. cbn [length Nat.eqb negb].
      assert (E : evaluator (c :: d :: cs) = None) by (apply evaluator_none; [exact N|intros k c' E; discriminate E]). rewrite E.
      destruct (negb (Nat.eqb (length v) 0)); reflexivity.
  Qed.
End Run.

(** ** The help text *)
Lemma blank_ok c : is_blank c = true <-> blank c.
Proof. unfold is_blank, blank. lia. Qed.
Lemma words_from_ok s : forall word, (forall c, In c word -> ~ blank c) -> in_words (rev word ++ s) (words_from s word).
Proof.
  induction s as [|c s IH]; intros word Hw; cbn [words_from].
  - rewrite app_nil_r. destruct word as [|x word]; [constructor|]. apply w_last.
    + intros E. apply (f_equal (@length Z)) in E. rewrite rev_length in E. discriminate.
    + intros c I. apply in_rev in I. auto.
  - destruct (is_blank c) eqn:B.
    + destruct word as [|x word].
      * cbn [rev app]. apply w_blank; [apply blank_ok, B|]. apply (IH []). intros ? [].
      * apply w_word; [intros E; apply (f_equal (@length Z)) in E; rewrite rev_length in E; discriminate|intros y I; apply in_rev in I; auto|apply blank_ok, B|].
        apply (IH []). intros ? [].
    + specialize (IH (c :: word)). cbn [rev] in IH. rewrite <- app_assoc in IH. apply IH. intros y [<-|I]; [|auto]. intros H. apply blank_ok in H. congruence.
Qed.
Lemma words_ok s : in_words s (words s).
Proof. apply (words_from_ok s []). intros ? []. Qed.

Lemma line_snoc l w : l <> [] -> line (l ++ [w]) = line l ++ [32] ++ w.
Proof.
  induction l as [|x l IH]; [contradiction|]. intros _. destruct l as [|y l]; [reflexivity|].
  cbn [app line] in *. rewrite IH by discriminate. rewrite <- !app_assoc. reflexivity.
Qed.
Lemma format_words_ok indent limit ws : Forall (fun w => w <> []) ws -> forall l out, l <> [] -> 0 < size (line l) ->
  exists ls, format_words indent limit ws (out ++ line l) (size indent + size (line l)) = out ++ line (hd [] ls) ++ match tl ls with [] => [] | r => [10] ++ paragraph indent r end /\
    concat ls = l ++ ws /\ hd_error ls <> None /\ (length l = 1%nat \/ Z.of_nat (length indent + length (line l)) <= limit -> lines_fit indent limit ls) /\ firstn (length l) (hd [] ls) = l.
Proof.
  intros F. induction F as [|w ws Hw F IH]; intros l out Nl Pl; cbn [format_words].
  - exists [l]. cbn [hd tl concat hd_error lines_fit]. rewrite !app_nil_r. repeat split; auto; [discriminate|apply firstn_all].
  - assert (Sw : 0 < size w) by (unfold size; destruct w; [contradiction|cbn [length]; lia]).
    replace (size indent <? size indent + size (line l)) with true by lia. destruct (limit <? size indent + size (line l) + 1 + size w) eqn:E.
    + destruct (IH [w] ((out ++ line l) ++ [10] ++ indent)) as (ls & R & C & H & Fi & Fr); [discriminate|exact Sw|].
      cbn [line] in R. rewrite <- !app_assoc in R. exists (l :: ls). cbn [hd tl].
      split; [|split; [|split; [|split]]].
      * rewrite <- !app_assoc. rewrite R. destruct ls as [|l1 ls]; [contradiction|]. cbn [hd tl paragraph]. destruct ls as [|l2 ls]; [rewrite app_nil_r; reflexivity|]. reflexivity.
      * cbn [concat]. rewrite C. reflexivity.
      * discriminate.
      * intros G. cbn [lines_fit]. split; [exact Nl|]. split; [exact G|]. split; [|apply Fi; left; reflexivity].
        destruct ls as [|[|w1 l1] ls]; auto. cbn [length firstn hd] in Fr. inversion Fr; subst w1. unfold size in E. lia.
      * apply firstn_all.
    + destruct (IH (l ++ [w]) out) as (ls & R & C & H & Fi & Fr).
      * destruct l; discriminate.
      * rewrite (line_snoc _ _ Nl). unfold size in *. rewrite !app_length. lia.
      * exists ls. rewrite (line_snoc _ _ Nl) in R, Fi.
        assert (Es : size indent + size (line l ++ [32] ++ w) = size indent + size (line l) + (1 + size w)) by (unfold size; rewrite !app_length; cbn [length]; lia).
        rewrite Es in R. rewrite <- !app_assoc. rewrite <- app_assoc in C. repeat split; auto.
        -- intros _. apply Fi. right. rewrite !app_length. cbn [length]. unfold size in E. lia.
        -- rewrite app_length in Fr.
           assert (G : firstn (length l) (firstn (length l + length [w]) (hd [] ls)) = firstn (length l) (l ++ [w])) by (rewrite Fr; reflexivity).
           rewrite firstn_firstn, Nat.min_l in G by lia. rewrite G, firstn_app, firstn_all, Nat.sub_diag. apply app_nil_r.
Qed.
Lemma in_words_nonempty s ws : in_words s ws -> Forall (fun w => w <> []) ws.
Proof. intros H. induction H; auto. Qed.
