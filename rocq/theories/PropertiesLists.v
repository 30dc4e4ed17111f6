(** Property theorems C22-C25 and C51: pairs and lists. *)
From Coq Require Import ZArith List Bool Lia PeanoNat.
From Verif Require Import Lists ListPredicates ListsProofs.
Import ListNotations.

(** A heap for the examples: 0-2 hold (1 2 3), 3 is a string, 4 holds (9 . <string>),
    5-6 hold the circular list #0=(7 8 . #0#), 7-8 hold ((4 . 5) (6 . 7)) with entries 9, 10 *)
Definition ex : heap :=
  [Obj true (Imm 1) (Ptr 1); Obj true (Imm 2) (Ptr 2); Obj true (Imm 3) Nil;
   Obj false Nil Nil; Obj true (Imm 9) (Ptr 3);
   Obj true (Imm 7) (Ptr 6); Obj true (Imm 8) (Ptr 5);
   Obj true (Ptr 9) (Ptr 8); Obj true (Ptr 10) Nil;
   Obj true (Imm 4) (Imm 5); Obj true (Imm 6) (Imm 7)].
Definition l123 : val := Ptr 0.
Example ex_list : seg ex l123 [0; 1; 2] [Imm 1; Imm 2; Imm 3] Nil.
Proof. repeat econstructor. Qed.
(** what a reader of [(v, heap)] sees *)
Fixpoint elements (n : nat) (h : heap) (v : val) : list val :=
  match n with
  | O => []
  | S n => match v with Ptr p => match nth_error h p with Some o => first o :: elements n h (second o) | None => [] end | _ => [] end
  end.
Definition shown (m : res (val * heap)) : list val := match m with Done (v, h) => elements 20 h v | _ => [Imm (-1)] end.
Definition imms := map Imm.

(** ** C22 Every object is exactly one of proper, dotted and circular list, and the
    three predicates return the answer (any fuel above the number of objects suffices) *)
Theorem C22_predicates_decide : forall h v, exists s, has_shape h v s /\
  (forall s', has_shape h v s' -> s' = s) /\
  forall fuel, length h < fuel ->
    proper_p fuel h v = Done (match s with Proper => true | _ => false end) /\
    dotted_p fuel h v = Done (match s with Dotted => true | _ => false end) /\
    circular_p fuel h v = Done (match s with Circular => true | _ => false end).
Proof. exact predicates_decide. Qed.
Example C22_proper : proper_p 12 ex l123 = Done true /\ dotted_p 12 ex l123 = Done false /\ circular_p 12 ex l123 = Done false.
Proof. vm_compute. auto. Qed.
Example C22_dotted : proper_p 12 ex (Ptr 4) = Done false /\ dotted_p 12 ex (Ptr 4) = Done true /\ circular_p 12 ex (Ptr 4) = Done false.
Proof. vm_compute. auto. Qed.
Example C22_circular : proper_p 12 ex (Ptr 5) = Done false /\ dotted_p 12 ex (Ptr 5) = Done false /\ circular_p 12 ex (Ptr 5) = Done true.
Proof. vm_compute. auto. Qed.
Print Assumptions C22_predicates_decide.

(** ** C23 Procedures that allocate: the elements are as prescribed, the new pairs are
    fresh and nothing that existed changes ([copies], [ext], [fresh]) *)
Theorem C23_make_list : forall n h x, copies h (Done (make_list n h x)) (repeat x n) Nil.
Proof. exact make_list_spec. Qed.
Example C23_make_list_ex : shown (Done (make_list 3 ex (Imm 5))) = imms [5; 5; 5]%Z.
Proof. reflexivity. Qed.
Print Assumptions C23_make_list.

Theorem C23_iota : forall n h plus start step, copies h (Done (iota n h plus start step)) (iterate plus n start step) Nil.
Proof. exact iota_spec. Qed.
Example C23_iota_ex : shown (Done (iota 4 ex (fun x y => match x, y with Imm a, Imm b => Imm (a + b) | _, _ => Nil end) (Imm 2) (Imm 3))) = imms [2; 5; 8; 11]%Z.
Proof. reflexivity. Qed.
Print Assumptions C23_iota.

Theorem C23_list_copy : forall h x ps xs w fuel, seg h x ps xs w -> ends h w -> length xs < fuel ->
  copies h (list_copy fuel h x) xs w.
Proof. intros h x ps xs w fuel H N. exact (list_copy_spec h x ps xs w H N fuel). Qed.
Example C23_list_copy_ex : shown (list_copy 9 ex l123) = imms [1; 2; 3]%Z.
Proof. reflexivity. Qed.
Print Assumptions C23_list_copy.

Theorem C23_append : forall h x ps xs w y fuel, seg h x ps xs w -> ends h w -> length xs < fuel ->
  copies h (append fuel h x y) xs y.
Proof. intros h x ps xs w y fuel H N. exact (append_spec h x ps xs w y H N fuel). Qed.
Theorem C23_append_all : forall vs xss h y fuel, Forall2 (fun v xs => exists ps, seg h v ps xs Nil) vs xss ->
  length (concat xss) < fuel -> copies h (append_all fuel h Nil (vs ++ [y])) (concat xss) y.
Proof. exact append_all_spec. Qed.
Example C23_append_ex : shown (append_all 20 ex Nil [l123; l123; Ptr 1]) = imms [1; 2; 3; 1; 2; 3; 2; 3]%Z.
Proof. reflexivity. Qed.
Print Assumptions C23_append. Print Assumptions C23_append_all.

Theorem C23_reverse : forall h x ps xs w fuel, seg h x ps xs w -> ends h w -> length xs < fuel ->
  copies h (reverse fuel h x) (rev xs) Nil.
Proof. exact reverse_spec. Qed.
Example C23_reverse_ex : shown (reverse 9 ex l123) = imms [3; 2; 1]%Z.
Proof. reflexivity. Qed.
Theorem C23_append_reverse : forall h x ps xs y fuel, seg h x ps xs Nil -> length xs < fuel ->
  copies h (append_reverse fuel h x y) (rev xs) y.
Proof. exact append_reverse_spec. Qed.
Example C23_append_reverse_ex : shown (append_reverse 9 ex l123 (Ptr 1)) = imms [3; 2; 1; 2; 3]%Z.
Proof. reflexivity. Qed.
Print Assumptions C23_reverse. Print Assumptions C23_append_reverse.

Theorem C23_map : forall f y h x ps xs w fuel, seg h x ps xs w -> ends h w -> length xs < fuel ->
  copies h (map_ fuel h f x y) (map f xs) y.
Proof. intros f y h x ps xs w fuel H N. exact (map_spec f y h x ps xs w H N fuel). Qed.
Theorem C23_filter : forall t h x ps xs w fuel, seg h x ps xs w -> ends h w -> length xs < fuel ->
  copies h (filter_ fuel h t x) (filter t xs) Nil.
Proof. intros t h x ps xs w fuel H N. exact (filter_spec t h x ps xs w H N fuel). Qed.
Example C23_filter_ex : shown (filter_ 9 ex (fun v => negb (veq v (Imm 2))) l123) = imms [1; 3]%Z.
Proof. reflexivity. Qed.
Print Assumptions C23_map. Print Assumptions C23_filter.

(** alist-copy: also the entries are fresh *)
Theorem C23_alist_copy : forall h x ps es w ks fuel, seg h x ps es w -> ends h w ->
  Forall2 (fun e kv => entry h e (fst kv) (snd kv)) es ks -> length es < fuel ->
  exists r h' ps' es', alist_copy fuel h x = Done (r, h') /\ ext h h' /\ seg h' r ps' es' Nil /\ fresh h ps' /\
    Forall2 (fun e kv => entry h' e (fst kv) (snd kv)) es' ks /\
    Forall (fun e => exists p, e = Ptr p /\ length h <= p /\ is_pair h' e = true) es' /\ NoDup es'.
Proof. intros h x ps es w ks fuel H N F. exact (alist_copy_spec h x ps es w H N ks F fuel). Qed.
Example C23_alist_copy_ex : shown (alist_copy 9 ex (Ptr 7)) = [Ptr 13; Ptr 11].
Proof. reflexivity. Qed.
Print Assumptions C23_alist_copy.

(** take and drop-right copy, drop and take-right share, for counts within the list *)
Theorem C23_take_partial : forall h x ps xs w k, seg h x ps xs w -> k <= length xs ->
  copies h (take h x k) (firstn k xs) Nil.
Proof. intros h x ps xs w k H. exact (take_spec h x ps xs w H k). Qed.
Theorem C23_drop_partial : forall h x ps xs w k, seg h x ps xs w -> k <= length xs ->
  exists v, drop h x k = Done v /\ seg h v (skipn k ps) (skipn k xs) w.
Proof. intros h x ps xs w k H. exact (drop_spec h x ps xs w H k). Qed.
Theorem C23_take_right_partial : forall h x ps xs w k fuel, seg h x ps xs w -> ends h w -> k <= length xs -> length xs < fuel ->
  exists v, take_right fuel h x k = Done v /\ seg h v (skipn (length xs - k) ps) (skipn (length xs - k) xs) w.
Proof. exact take_right_spec. Qed.
Theorem C23_drop_right_partial : forall h x ps xs w k fuel, seg h x ps xs w -> ends h w -> k <= length xs -> length xs < fuel ->
  copies h (drop_right fuel h x k) (firstn (length xs - k) xs) Nil.
Proof. exact drop_right_spec. Qed.
Theorem C23_list_ref_partial : forall h x ps xs w k a, seg h x ps xs w -> nth_error xs k = Some a -> list_ref h x k = Done a.
Proof. exact list_ref_spec. Qed.
Example C23_take_ex : shown (take ex l123 2) = imms [1; 2]%Z /\ drop ex l123 1 = Done (Ptr 1) /\ list_ref ex l123 2 = Done (Imm 3)
  /\ take_right 9 ex l123 1 = Done (Ptr 2) /\ shown (drop_right 9 ex l123 1) = imms [1; 2]%Z.
Proof. vm_compute. auto. Qed.
Print Assumptions C23_take_partial. Print Assumptions C23_drop_partial. Print Assumptions C23_take_right_partial.
Print Assumptions C23_drop_right_partial. Print Assumptions C23_list_ref_partial.
(** What is missing: an error for a count past the end.  Instead the empty list is
    dereferenced: (list-tail '(1 2 3) 4) and every larger count is undefined behaviour. *)
Theorem C23_drop_past_end_refuted : forall h x ps xs k, seg h x ps xs Nil -> length xs < k -> drop h x k = Ub.
Proof. intros h x ps xs k H L. exact (drop_past_end h x ps xs Nil H ltac:(discriminate) k L). Qed.
Theorem C23_take_past_end_refuted : forall h x ps xs k, seg h x ps xs Nil -> length xs < k -> take h x k = Ub.
Proof. intros h x ps xs k H L. exact (take_past_end h x ps xs Nil H ltac:(discriminate) k L). Qed.
Example C23_past_end_ex : drop ex l123 4 = Ub /\ take ex l123 4 = Ub.
Proof. vm_compute. auto. Qed.
Print Assumptions C23_drop_past_end_refuted. Print Assumptions C23_take_past_end_refuted.

Theorem C23_last : forall h x ps xs a w fuel, seg h x ps (xs ++ [a]) w -> ends h w -> length xs < fuel ->
  last_ fuel h x = Done a.
Proof. exact last_spec. Qed.
Example C23_last_ex : last_ 9 ex l123 = Done (Imm 3).
Proof. reflexivity. Qed.
Print Assumptions C23_last.

(** length is right for proper lists of fewer than 2^31 elements *)
Theorem C23_length_partial : forall h x ps xs fuel, seg h x ps xs Nil -> length xs < fuel -> (Z.of_nat (length xs) < 2^31)%Z ->
  length_ fuel h x = Done (Z.of_nat (length xs)).
Proof. exact length_spec. Qed.
(** What is missing: an error for an object that is not a proper list.  A circular list makes it loop
    and a dotted one is counted (and one whose tail is a string or other heap object is
    counted as if the tail were one more pair). *)
Theorem C23_length_circular_refuted : forall h x fuel, circular h x -> length_ fuel h x = Loop.
Proof. intros h x fuel C. exact (length_circular h x C fuel). Qed.
Theorem C23_length_dotted_refuted :
  dotted_p 12 ex (Ptr 9) = Done true /\ length_ 12 ex (Ptr 9) = Done 1%Z /\
  dotted_p 12 ex (Ptr 4) = Done true /\ length_ 12 ex (Ptr 4) = Done 2%Z.
Proof. vm_compute. auto. Qed.
Example C23_length_ex : length_ 12 ex l123 = Done 3%Z /\ circular ex (Ptr 5).
Proof. split; [reflexivity|]. apply (seg_circular ex (Ptr 5) [5; 6] [Imm 7; Imm 8]); [repeat econstructor|discriminate]. Qed.
Print Assumptions C23_length_partial. Print Assumptions C23_length_circular_refuted. Print Assumptions C23_length_dotted_refuted.

(** ** C24 Procedures that write: the elements are as prescribed and only cdrs of the
    argument's own pairs change ([touched]) *)
Theorem C24_append_x : forall vs pss xss h y fuel,
  Forall2 (fun v (l : list nat * list val) => seg h v (fst l) (snd l) Nil) vs (combine pss xss) ->
  length pss = length xss -> NoDup (concat pss) -> length (concat xss) <= fuel ->
  exists r h', append_x_proc fuel h (vs ++ [y]) = Done (r, h') /\ touched h h' (concat pss) /\
    seg h' r (concat pss) (concat xss) y.
Proof. exact append_x_spec. Qed.
Example C24_append_x_ex : shown (append_x_proc 20 ex [l123; Nil; Ptr 8; Imm 0]) = imms [1; 2; 3]%Z ++ [Ptr 10].
Proof. reflexivity. Qed.
Print Assumptions C24_append_x.

Theorem C24_reverse_x : forall h x p ps a xs w fuel, seg h x (p :: ps) (a :: xs) w -> ends h w -> length xs < fuel ->
  exists r h' qs, reverse_x fuel h x = Done (r, h') /\ touched h h' [p] /\ seg h' r qs (rev (a :: xs)) Nil.
Proof. exact reverse_x_spec. Qed.
Theorem C24_append_reverse_x : forall h x p ps a xs y fuel, seg h x (p :: ps) (a :: xs) Nil -> length xs < fuel ->
  exists r h' qs, append_reverse_x fuel h x y = Done (r, h') /\ touched h h' [p] /\ seg h' r qs (rev (a :: xs)) y.
Proof. exact append_reverse_x_spec. Qed.
Example C24_reverse_x_ex : shown (reverse_x 9 ex l123) = imms [3; 2; 1]%Z /\ shown (reverse_x 9 ex Nil) = []
  /\ shown (append_reverse_x 9 ex l123 (Ptr 4)) = imms [3; 2; 1; 9]%Z ++ [Nil].
Proof. vm_compute. auto. Qed.
Print Assumptions C24_reverse_x. Print Assumptions C24_append_reverse_x.

Theorem C24_take_x : forall h x ps xs w k, seg h x ps xs w -> ends h w -> k <= length xs ->
  exists r h', take_x h x k = Done (r, h') /\ touched h h' ps /\ seg h' r (firstn k ps) (firstn k xs) Nil.
Proof. exact take_x_spec. Qed.
Theorem C24_drop_right_x : forall h x ps xs w k fuel, seg h x ps xs w -> ends h w -> k <= length xs -> length xs < fuel ->
  exists r h', drop_right_x fuel h x k = Done (r, h') /\ touched h h' ps /\
    seg h' r (firstn (length xs - k) ps) (firstn (length xs - k) xs) Nil.
Proof. exact drop_right_x_spec. Qed.
Example C24_take_x_ex : shown (take_x ex l123 2) = imms [1; 2]%Z /\ shown (drop_right_x 9 ex l123 2) = imms [1]%Z.
Proof. vm_compute. auto. Qed.
Print Assumptions C24_take_x. Print Assumptions C24_drop_right_x.

Theorem C24_circulate : forall h x ps xs w fuel, seg h x ps xs w -> ends h w -> xs <> [] -> length xs <= fuel ->
  exists h', circulate fuel h x = Done h' /\ touched h h' ps /\ seg h' x ps xs x.
Proof. exact circulate_spec. Qed.
Theorem C24_circular_list : forall h x ps xs w fuel, seg h x ps xs w -> ends h w -> xs <> [] -> length xs < fuel ->
  exists r h' qs, circular_list fuel h x = Done (r, h') /\ touched h h' [] /\ fresh h qs /\ seg h' r qs xs r.
Proof. exact circular_list_spec. Qed.
Example C24_circular_list_ex : firstn 5 (shown (circular_list 9 ex l123)) = imms [1; 2; 3; 1; 2]%Z.
Proof. reflexivity. Qed.
Print Assumptions C24_circulate. Print Assumptions C24_circular_list.

(** ** C25 memq, memv, assq, assv find the first match *)
Theorem C25_mem : forall same x h v ps xs w fuel, seg h v ps xs w -> ends h w -> length xs < fuel ->
  (mem fuel h same x v = Done None /\ Forall (fun a => same x a = false) xs) \/
  (exists pre a post t, xs = pre ++ a :: post /\ Forall (fun a => same x a = false) pre /\ same x a = true /\
     mem fuel h same x v = Done (Some t) /\ seg h t (skipn (length pre) ps) (a :: post) w).
Proof. intros same x h v ps xs w fuel H N. exact (mem_spec same x h v ps xs w H N fuel). Qed.
Theorem C25_ass : forall same x h v ps es w ks fuel, seg h v ps es w -> ends h w ->
  Forall2 (fun e k => car h e = Done k) es ks -> length es < fuel ->
  (ass fuel h same x v = Done None /\ Forall (fun k => same x k = false) ks) \/
  (exists kpre k kpost pre e post, ks = kpre ++ k :: kpost /\ es = pre ++ e :: post /\ length pre = length kpre /\
     Forall (fun k => same x k = false) kpre /\ same x k = true /\ ass fuel h same x v = Done (Some e)).
Proof. intros same x h v ps es w ks fuel H N F. exact (ass_spec same x h v ps es w H N ks F fuel). Qed.
Example C25_ex : mem 9 ex veq (Imm 2) l123 = Done (Some (Ptr 1)) /\ mem 9 ex veq (Imm 5) l123 = Done None
  /\ ass 9 ex veq (Imm 6) (Ptr 7) = Done (Some (Ptr 10)) /\ ass 9 ex veq (Imm 5) (Ptr 7) = Done None.
Proof. vm_compute. auto. Qed.
Print Assumptions C25_mem. Print Assumptions C25_ass.

(** ** C51 car and cdr of a pair are its fields.  Full statement: they signal an error
    for everything else. *)
Theorem C51_car_cdr_partial : forall h p a d, nth_error h p = Some (Obj true a d) ->
  car h (Ptr p) = Done a /\ cdr h (Ptr p) = Done d.
Proof. intros h p a d E. exact (proj2 (seg_cons_car h p a d E)). Qed.
(** For the empty list and every immediate the access is undefined behaviour; every
    other heap object (a string, a vector, ...) is read as if it were a pair. *)
Theorem C51_no_error_refuted : forall h,
  car h Nil = Ub /\ cdr h Nil = Ub /\
  (forall b, car h (Imm b) = Ub /\ cdr h (Imm b) = Ub) /\
  (forall p o, nth_error h p = Some o -> pairp o = false -> car h (Ptr p) = Done (first o) /\ cdr h (Ptr p) = Done (second o)).
Proof. intros h. repeat split; intros; cbn; rewrite ?H; reflexivity. Qed.
Example C51_ex : car ex l123 = Done (Imm 1) /\ car ex (Ptr 3) = Done Nil /\ car ex Nil = Ub.
Proof. vm_compute. auto. Qed.
Print Assumptions C51_car_cdr_partial. Print Assumptions C51_no_error_refuted.
