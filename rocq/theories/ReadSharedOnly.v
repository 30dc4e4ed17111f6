(** Texts that are not well-formed are not read by read/ss. *)
From Coq Require Import ZArith List Bool Arith Lia.
From Verif Require Import Lists Labels ReadShared ReadSharedSpec.
Import ListNotations.

Notation names s := (map fst (parts_alist s)).
Lemma declared_none n l : declared n l = None -> ~ In n (map fst l).
Proof. induction l as [|(m, p) l IH]; cbn; [intros _ []|]. destruct (Nat.eqb_spec m n); [discriminate|]. intros D [E|I]; [contradiction|exact (IH D I)]. Qed.
Lemma declared_some n l p : declared n l = Some p -> In n (map fst l).
Proof. induction l as [|(m, q) l IH]; cbn; [discriminate|]. destruct (Nat.eqb_spec m n); [left; assumption|right; auto]. Qed.

Lemma wording_any B B' E t ts E' : (forall n, t <> TDecl n) -> (forall n, t <> TUse n) -> wording B E (t :: ts) E' -> wording B' E (t :: ts) E'.
Proof. intros D U H. inversion H; subst; try constructor; try assumption; [destruct (U n); reflexivity|destruct (D n); reflexivity]. Qed.

Lemma read_part_only : forall fuel k s ts v s' rest, read_part fuel k s ts = Done (Object v, s', rest) ->
  exists us, ts = us ++ rest /\
  match k with
  | Finish t => wording (names s) (names s) (t :: us) (names s')
  | Decls start t => wording (map fst start) (names s) (t :: us) (names s')
  | Tail => tail_wording (names s) us (names s')
  end.
Proof.
  induction fuel as [|fuel IH]; intros k s ts v s' rest R; [discriminate|]. cbn [read_part] in R. destruct k as [t|start t|].
  - destruct t as [a| | | | |n|n]; try discriminate.
    + injection R as <- <- <-. exists []. split; [reflexivity|constructor].
    + destruct (IH _ _ _ _ _ _ R) as (us & -> & W). exists us. split; [reflexivity|constructor; exact W].
    + destruct (read_part fuel Tail s ts) as [[[r s1] ts1]| |] eqn:R1; [|discriminate..]. cbn [rbind] in R. destruct r as [w|]; [|discriminate].
      destruct (IH _ _ _ _ _ _ R1) as (us & -> & W). destruct (items (S (length (nodes s1))) (nodes s1) w); [|discriminate..]. cbn in R. injection R as <- <- <-.
      exists us. split; [reflexivity|]. cbn. constructor. exact W.
    + exact (IH _ _ _ _ _ _ R).
    + exact (IH _ _ _ _ _ _ R).
  - assert (O : (forall n, t <> TDecl n) -> (forall n, t <> TUse n) -> read_part fuel (Finish t) s ts = Done (Object v, s', rest) ->
      exists us, ts = us ++ rest /\ wording (map fst start) (names s) (t :: us) (names s')).
    { intros D U R'. destruct (IH _ _ _ _ _ _ R') as (us & -> & W). exists us. split; [reflexivity|]. eapply wording_any; eassumption. }
    destruct t as [a| | | | |n|n]; try (apply O; [discriminate|discriminate|exact R]); clear O.
    + destruct (declared n (parts_alist s)) eqn:D; [discriminate|]. cbn [add_node] in R. destruct ts as [|t ts]; [discriminate|]. cbn [nodes parts_alist variables] in R.
      match type of R with rbind ?m _ = _ => destruct m as [[[r s1] ts1]| |] eqn:R1; [|discriminate..] end. cbn [rbind] in R. destruct r as [w|]; [|discriminate]. injection R as <- <- <-.
      destruct (IH _ _ _ _ _ _ R1) as (us & -> & W). exists (t :: us). split; [reflexivity|]. cbn in W |- *. constructor; [apply declared_none; exact D|exact W].
    + destruct (declared n start) eqn:D; [|discriminate]. injection R as <- <- <-. exists []. split; [reflexivity|]. constructor. eapply declared_some. exact D.
  - assert (O : forall t ts, rbind (read_part fuel (Finish t) s ts) (fun '(r, s, ts) => match r with
        | Object a => rbind (read_part fuel Tail s ts) (fun '(r, s, ts) => match r with Object d => let '(p, s) := add_node s (Cons a d) in Done (Object (Ptr p), s, ts) | Error => Done (Error, s, ts) end)
        | Error => Done (Error, s, ts) end) = Done (Object v, s', rest) ->
      exists us, t :: ts = us ++ rest /\ tail_wording (names s) us (names s')).
    { clear R. intros t us R. destruct (read_part fuel (Finish t) s us) as [[[r s1] ts1]| |] eqn:R1; [|discriminate..]. cbn [rbind] in R. destruct r as [a|]; [|discriminate].
      destruct (read_part fuel Tail s1 ts1) as [[[r s2] ts2]| |] eqn:R2; [|discriminate..]. cbn [rbind] in R. destruct r as [d|]; [|discriminate]. cbn in R. injection R as <- <- <-.
      destruct (IH _ _ _ _ _ _ R1) as (u1 & -> & W1). destruct (IH _ _ _ _ _ _ R2) as (u2 & -> & W2).
      exists ((t :: u1) ++ u2). split; [cbn; rewrite app_assoc; reflexivity|]. exact (Word_more _ (t :: u1) _ _ _ W1 W2). }
    destruct ts as [|t ts]; [discriminate|]. destruct t as [a| | | | |n|n]; try (apply O; exact R); clear O.
    + injection R as <- <- <-. exists [TClose]. split; [reflexivity|constructor].
    + destruct ts as [|t ts]; [discriminate|]. destruct (read_part fuel (Finish t) s ts) as [[[r s1] ts1]| |] eqn:R1; [|discriminate..]. cbn [rbind] in R.
      destruct r as [w|]; [|discriminate]. destruct ts1 as [|[] ts1]; try discriminate. injection R as <- <- <-. destruct (IH _ _ _ _ _ _ R1) as (us & -> & W).
      exists (TDot :: (t :: us) ++ [TClose]). split; [cbn; rewrite <- app_assoc; reflexivity|]. constructor. exact W.
Qed.
Lemma read_shared_only fuel h ts v h' rest : read_shared fuel h ts = Done (Object v, h', rest) -> exists us E, ts = us ++ rest /\ wording [] [] us E.
Proof.
  unfold read_shared. destruct ts as [|t ts]; [discriminate|]. destruct (read_part fuel (Finish t) (Reader h [] []) ts) as [[[r s1] ts1]| |] eqn:R1; [|discriminate..]. cbn [rbind].
  destruct r as [w|]; [|discriminate]. destruct (fill_in_parts fuel (variables s1) (nodes s1) w); [|discriminate..]. cbn. intros [= <- <- <-].
  destruct (read_part_only _ _ _ _ _ _ _ R1) as (us & -> & W). exists (t :: us), (names s1). split; [reflexivity|exact W].
Qed.
