(** Model of include/meevax/memory/allocator.hpp, the segregated storage
    allocator that provides memory for pairs.

    A chunk is named by its block number and its index in the block; the blocks
    come from [operator new], which is trusted to return memory that does not
    overlap any other block, so different names are different memory.  The
    [union chunk] is one memory word here: the free list link of a free chunk
    and the client's data in a live one share it, and [Write] lets the client
    put anything there. *)
From Coq Require Import NArith List Bool Lia.
Import ListNotations.
Open Scope N_scope.

Definition chunk := (N * N)%type.
Definition chunk_eqb (a b : chunk) : bool := (fst a =? fst b) && (snd a =? snd b).
Lemma chunk_eqb_spec a b : reflect (a = b) (chunk_eqb a b).
Proof.
  destruct a as [a1 a2], b as [b1 b2]. unfold chunk_eqb. cbn [fst snd].
  destruct (N.eqb_spec a1 b1), (N.eqb_spec a2 b2); cbn; constructor; congruence.
Qed.

(** allocator.hpp:79-83: the static members, plus the memory words. *)
Record alloc_state := {
  as_free_list : option chunk;              (* free_list *)
  as_block : N;                             (* which block free_space is; blocks 0..as_block exist *)
  as_size : N;                              (* free_space->size *)
  as_mem : chunk -> option chunk            (* the tail field of each chunk *)
}.

Section Allocator.
  Variable NC : N.                           (* N, chunks per block, hpp:27 *)

  (** hpp:58-60, 79, 81 *)
  Definition alloc_init : alloc_state :=
    {| as_free_list := None; as_block := 0; as_size := NC; as_mem := fun _ => None |}.

  (** hpp:112-129; pop is hpp:73-76 *)
  Definition allocate (s : alloc_state) : chunk * alloc_state :=
    match as_free_list s with
    | Some c => (c, {| as_free_list := as_mem s c; as_block := as_block s; as_size := as_size s; as_mem := as_mem s |})
    | None =>
      let '(b, n) := if as_size s =? 0 then (as_block s + 1, NC) else (as_block s, as_size s) in
      ((b, n - 1), {| as_free_list := None; as_block := b; as_size := n - 1; as_mem := as_mem s |})
    end.

  (** hpp:131-136 *)
  Definition deallocate (s : alloc_state) (c : chunk) : alloc_state :=
    {| as_free_list := Some c; as_block := as_block s; as_size := as_size s;
       as_mem := fun x => if chunk_eqb x c then as_free_list s else as_mem s x |}.

  (** ** Histories: what a client may do *)
  Inductive aop := Alloc | Free (c : chunk) | Write (c : chunk) (v : option chunk).

  (** The live chunks are those handed out and not yet returned. *)
  Definition astep (sl : alloc_state * list chunk) (o : aop) : option (alloc_state * list chunk) :=
    let '(s, l) := sl in
    match o with
    | Alloc => let '(c, s') := allocate s in Some (s', c :: l)
    | Free c => if existsb (chunk_eqb c) l
                then Some (deallocate s c, filter (fun x => negb (chunk_eqb x c)) l) else None
    | Write c v => if existsb (chunk_eqb c) l
                   then Some ({| as_free_list := as_free_list s; as_block := as_block s; as_size := as_size s;
                                 as_mem := fun x => if chunk_eqb x c then v else as_mem s x |}, l) else None
    end.

  Fixpoint arun (sl : alloc_state * list chunk) (h : list aop) : option (alloc_state * list chunk) :=
    match h with [] => Some sl | o :: h' => match astep sl o with Some sl' => arun sl' h' | None => None end end.

  (** ** Invariant *)
  Hypothesis HN : 0 < NC.

  Inductive linked (mem : chunk -> option chunk) : option chunk -> list chunk -> Prop :=
  | linked_nil : linked mem None []
  | linked_cons c l : linked mem (mem c) l -> linked mem (Some c) (c :: l).

  (** chunks that have been popped from a block *)
  Definition popped (s : alloc_state) (c : chunk) : Prop :=
    snd c < NC /\ (fst c < as_block s \/ (fst c = as_block s /\ as_size s <= snd c)).

  Definition ainv (sl : alloc_state * list chunk) : Prop :=
    let '(s, l) := sl in
    as_size s <= NC /\
    exists f, linked (as_mem s) (as_free_list s) f /\ NoDup (f ++ l) /\
      (forall c, In c (f ++ l) <-> popped s c).

  Lemma linked_ext mem mem' o l : linked mem o l -> (forall c, In c l -> mem' c = mem c) -> linked mem' o l.
  Proof.
    induction 1 as [|c l H IH]; intros Hext; constructor.
    rewrite (Hext c) by (left; reflexivity). apply IH. intros c' Hc'. apply Hext. right. exact Hc'.
  Qed.

  Lemma existsb_chunk c l : existsb (chunk_eqb c) l = true <-> In c l.
  Proof.
    rewrite existsb_exists. split.
    - intros [x [H1 H2]]. destruct (chunk_eqb_spec c x); [subst; exact H1|discriminate].
    - intros H. exists c. split; [exact H|]. destruct (chunk_eqb_spec c c); congruence.
  Qed.

  Lemma ainv_init : ainv (alloc_init, []).
  Proof.
    split; [cbn; lia|]. exists []. split; [constructor|]. split; [constructor|].
    intros [b k]. unfold popped, alloc_init. cbn [app In as_block as_size fst snd]. lia.
  Qed.

  (** Everything about one allocation. *)
  Lemma allocate_inv s l c s' : ainv (s, l) -> allocate s = (c, s') ->
    ainv (s', c :: l) /\ ~ In c l /\ fst c <= as_block s' /\ snd c < NC.
  Proof.
    intros [Hsz [f [Hlk [Hnd Hpop]]]] Ha. unfold allocate in Ha.
    inversion Hlk as [Hfl Hf|c0 f' Hlk' Hfl Hf].
    - rewrite <- Hfl in Ha. subst f. cbn [app] in *.
      assert (Hgo : forall b n, (if as_size s =? 0 then (as_block s + 1, NC) else (as_block s, as_size s)) = (b, n) ->
                0 < n /\ n <= NC /\ ~ In (b, n - 1) l /\
                (forall x, popped {| as_free_list := None; as_block := b; as_size := n - 1; as_mem := as_mem s |} x
                           <-> x = (b, n - 1) \/ popped s x)).
      { intros b n E. destruct (N.eqb_spec (as_size s) 0) as [H0|H0]; injection E as <- <-.
        - split; [lia|]. split; [lia|]. split.
          + rewrite Hpop. unfold popped. cbn [fst snd]. lia.
          + intros [xb xk]. unfold popped. cbn [fst snd as_block as_size]. split.
            * intros [H1 [H2|[H2 H3]]].
              -- right. split; [exact H1|]. assert (xb < as_block s \/ xb = as_block s) as [?|?] by lia; [left|right]; lia.
              -- left. f_equal; lia.
            * intros [[= -> ->]|[H1 H2]]; [split; [lia|right; lia]|]. split; [exact H1|]. left. lia.
        - split; [lia|]. split; [lia|]. split.
          + rewrite Hpop. unfold popped. cbn [fst snd]. lia.
          + intros [xb xk]. unfold popped. cbn [fst snd as_block as_size]. split.
            * intros [H1 [H2|[H2 H3]]]; [right; lia|].
              destruct (N.eq_dec xk (as_size s - 1)) as [->|]; [left; congruence|right; lia].
            * intros [[= -> ->]|[H1 H2]]; lia. }
      destruct (if as_size s =? 0 then (as_block s + 1, NC) else (as_block s, as_size s)) as [b n] eqn:E.
      injection Ha as <- <-. destruct (Hgo b n eq_refl) as [G1 [G2 [G3 G4]]].
      cbn [fst snd as_block]. split; [|split; [exact G3|split; lia]].
      split; [cbn [as_size]; lia|]. exists []. split; [constructor|]. cbn [app]. split.
      + constructor; assumption.
      + intros x. rewrite G4. cbn [In]. rewrite Hpop. split; intros [H|H]; auto.
    - rewrite <- Hfl in Ha. injection Ha as <- <-. subst f.
      cbn [app] in Hnd, Hpop. inversion Hnd as [|? ? Hnin Hnd']; subst.
      assert (Hp : popped s c0) by (apply Hpop; left; reflexivity).
      split; [|split; [|split]].
      + split; [exact Hsz|]. exists f'. cbn [as_mem as_free_list]. split; [exact Hlk'|]. split.
        * apply NoDup_Add with (a := c0) (l := f' ++ l); [apply Add_app|]. split; assumption.
        * intros x. unfold popped in *. cbn [as_block as_size]. rewrite <- Hpop.
          rewrite !in_app_iff. cbn [In]. rewrite in_app_iff. tauto.
      + intros H. apply Hnin. apply in_app_iff. right. exact H.
      + cbn [as_block]. destruct Hp as [_ Hp]. lia.
      + destruct Hp as [Hp _]. exact Hp.
  Qed.

  Lemma NoDup_app_r {A} (l1 l2 : list A) : NoDup (l1 ++ l2) -> NoDup l2.
  Proof. induction l1 as [|a l1 IH]; cbn [app]; [auto|]. inversion 1; subst; auto. Qed.

  Lemma astep_inv sl o sl' : ainv sl -> astep sl o = Some sl' -> ainv sl'.
  Proof.
    destruct sl as [s l]. intros Hinv. destruct o as [|c|c v]; cbn [astep].
    - destruct (allocate s) as [c s'] eqn:E. intros [= <-].
      apply (allocate_inv s l c s' Hinv E).
    - destruct (existsb (chunk_eqb c) l) eqn:E; [|discriminate]. intros [= <-].
      apply existsb_chunk in E. destruct Hinv as [Hsz [f [Hlk [Hnd Hpop]]]].
      apply in_split in E as [l1 [l2 ->]].
      assert (Hnd2 := Hnd). apply NoDup_app_r in Hnd2.
      assert (Hc := NoDup_remove_2 _ _ _ Hnd2).
      assert (Hfil : filter (fun x => negb (chunk_eqb x c)) (l1 ++ c :: l2) = l1 ++ l2).
      { assert (Hid : forall k, ~ In c k -> filter (fun x => negb (chunk_eqb x c)) k = k).
        { induction k as [|y k IH]; intros Hk; [reflexivity|]. cbn [filter].
          destruct (chunk_eqb_spec y c) as [->|]; [exfalso; apply Hk; left; reflexivity|].
          cbn [negb]. f_equal. apply IH. intros H. apply Hk. right. exact H. }
        rewrite filter_app. cbn [filter]. destruct (chunk_eqb_spec c c); [|congruence]. cbn [negb].
        rewrite !Hid; [reflexivity| |]; intros H; apply Hc; apply in_app_iff; auto. }
      rewrite Hfil.
      assert (Hcf : ~ In c f).
      { intros H. rewrite app_assoc in Hnd. apply NoDup_remove_2 in Hnd. apply Hnd.
        apply in_app_iff. left. apply in_app_iff. left. exact H. }
      split; [exact Hsz|]. exists (c :: f). unfold deallocate. cbn [as_mem as_free_list]. split; [|split].
      + constructor. destruct (chunk_eqb_spec c c); [|congruence].
        apply (linked_ext (as_mem s)); [exact Hlk|]. intros x Hx.
        destruct (chunk_eqb_spec x c) as [->|]; [contradiction|reflexivity].
      + cbn [app]. rewrite app_assoc in *. apply NoDup_Add with (a := c) (l := (f ++ l1) ++ l2) in Hnd; [|apply Add_app].
        constructor; [tauto|tauto].
      + intros x. unfold popped. cbn [as_block as_size]. unfold popped in Hpop. rewrite <- Hpop.
        cbn [app In]. rewrite !in_app_iff. cbn [In]. tauto.
    - destruct (existsb (chunk_eqb c) l) eqn:E; [|discriminate]. intros [= <-].
      apply existsb_chunk in E. destruct Hinv as [Hsz [f [Hlk [Hnd Hpop]]]].
      split; [exact Hsz|]. exists f. cbn [as_mem as_free_list]. split; [|split; [exact Hnd|exact Hpop]].
      apply (linked_ext (as_mem s)); [exact Hlk|]. intros x Hx.
      destruct (chunk_eqb_spec x c) as [->|]; [|reflexivity]. exfalso.
      apply in_split in Hx as [f1 [f2 ->]]. rewrite <- app_assoc in Hnd. cbn [app] in Hnd.
      apply NoDup_remove_2 in Hnd. apply Hnd. rewrite !in_app_iff. auto.
  Qed.

  Lemma arun_inv h : forall sl sl', ainv sl -> arun sl h = Some sl' -> ainv sl'.
  Proof.
    induction h as [|o h IH]; intros sl sl' Hi; cbn [arun]; [intros [= <-]; exact Hi|].
    destruct (astep sl o) as [sl1|] eqn:E; [|discriminate]. apply IH. eapply astep_inv; eauto.
  Qed.

  Lemma allocation_fresh h s l : arun (alloc_init, []) h = Some (s, l) ->
    let (c, s') := allocate s in
    ~ In c l /\ fst c <= as_block s' /\ snd c < NC.
  Proof.
    intros H. assert (Hi := arun_inv h _ _ ainv_init H).
    destruct (allocate s) as [c s'] eqn:E. apply (allocate_inv s l c s' Hi E).
  Qed.

  Lemma live_distinct h s l : arun (alloc_init, []) h = Some (s, l) -> NoDup l.
  Proof.
    intros H. destruct (arun_inv h _ _ ainv_init H) as [_ [f [_ [Hnd _]]]].
    apply NoDup_app_r in Hnd. exact Hnd.
  Qed.

  (** Freed chunks come back last-in first-out, whatever the client wrote into
      the other live chunks meanwhile. *)
  Lemma free_then_alloc s c : fst (allocate (deallocate s c)) = c /\
    as_free_list (snd (allocate (deallocate s c))) = as_free_list s.
  Proof.
    unfold allocate, deallocate. cbn [as_free_list as_mem fst snd]. split; [reflexivity|].
    destruct (chunk_eqb_spec c c); congruence.
  Qed.

  Definition is_write (o : aop) : Prop := match o with Write _ _ => True | _ => False end.

  Lemma writes_keep h : Forall is_write h -> forall s l s' l', arun (s, l) h = Some (s', l') ->
    l' = l /\ as_free_list s' = as_free_list s /\ as_block s' = as_block s /\ as_size s' = as_size s /\
    (forall c, ~ In c l -> as_mem s' c = as_mem s c).
  Proof.
    induction h as [|o h IH]; intros Hw s l s' l'; cbn [arun]; [intros [= <- <-]; auto|].
    inversion Hw as [|? ? Ho Hw']; subst. destruct o as [| |c v]; try contradiction.
    cbn [astep]. destruct (existsb (chunk_eqb c) l) eqn:E; [|discriminate]. intros H.
    apply (IH Hw') in H as [-> [H2 [H3 [H4 H5]]]]. cbn [as_free_list as_block as_size] in *.
    repeat split; try assumption. intros x Hx. rewrite H5 by exact Hx. cbn [as_mem].
    destruct (chunk_eqb_spec x c) as [->|]; [|reflexivity]. apply existsb_chunk in E. contradiction.
  Qed.

  (** Two frees with client writes in between are undone in reverse order. *)
  Lemma lifo_two h s l c1 c2 : In c1 l -> In c2 l -> c1 <> c2 ->
    Forall is_write h ->
    forall s1 l1, arun (s, l) (Free c1 :: Free c2 :: h) = Some (s1, l1) ->
    exists s2, allocate s1 = (c2, s2) /\ fst (allocate s2) = c1.
  Proof.
    intros Hc1 Hc2 Hne Hw s1 l1. cbn [arun astep].
    assert (E1 := proj2 (existsb_chunk c1 l) Hc1). rewrite E1. cbn [astep].
    destruct (existsb (chunk_eqb c2) (filter (fun x => negb (chunk_eqb x c1)) l)) eqn:E2; [|discriminate].
    intros H. apply (writes_keep h Hw) in H as [Hl [H2 [H3 [H4 H5]]]].
    assert (Hm1 : as_mem s1 c1 = as_mem (deallocate (deallocate s c1) c2) c1).
    { apply H5. rewrite !filter_In. intros [[_ H] _].
      destruct (chunk_eqb_spec c1 c1); [discriminate|congruence]. }
    assert (Hm2 : as_mem s1 c2 = as_mem (deallocate (deallocate s c1) c2) c2).
    { apply H5. rewrite !filter_In. intros [_ H].
      destruct (chunk_eqb_spec c2 c2); [discriminate|congruence]. }
    unfold allocate. rewrite H2. cbn [deallocate as_free_list]. eexists. split; [reflexivity|].
    cbn [as_free_list]. rewrite Hm2. unfold deallocate. cbn [as_mem as_free_list].
    destruct (chunk_eqb_spec c2 c2); [|congruence]. reflexivity.
  Qed.

  (** No memory is lost: a new block is requested only if every chunk of every
      existing block is live. *)
  Lemma new_block_only_when_full h s l : arun (alloc_init, []) h = Some (s, l) ->
    forall c s', allocate s = (c, s') -> as_block s' <> as_block s ->
    forall b k, b <= as_block s -> k < NC -> In (b, k) l.
  Proof.
    intros H c s' Ha Hb b k Hbl Hk. destruct (arun_inv h _ _ ainv_init H) as [Hsz [f [Hlk [Hnd Hpop]]]].
    unfold allocate in Ha. inversion Hlk as [Hfl Hf|c0 f' Hlk' Hfl Hf]; rewrite <- Hfl in Ha.
    - subst f. cbn [app] in Hpop. apply Hpop. unfold popped. cbn [fst snd].
      destruct (N.eqb_spec (as_size s) 0) as [H0|H0].
      + split; [exact Hk|]. lia.
      + injection Ha as _ <-. cbn [as_block] in Hb. congruence.
    - injection Ha as _ <-. cbn [as_block] in Hb. congruence.
  Qed.
End Allocator.
