(** Storage blocks of the B+tree (properties C28, C29, C63, C64). *)
From Verif Require Import Bytes Outcome PhysModel PhysSpec BlockModel BlockSpec BlockProofs.
From Coq Require Import ZArith Sorting.Permutation.

Definition key (z : Z) : pval := PInt I64 z.
Definition full_size : nat := N.to_nat 262144.

(** * C28 *)

(** After any appends and removals, starting from an empty block of [F] bytes: the answers and the stored items are those
    of a plain collection of items; the block is in order (keys sorted, counters and free space right), no two items share
    a byte, items and metadata do not overlap, and reading the block back from its bytes gives the same block.
    Missing: removals of an item that is not stored under a key that is. *)
Theorem C28_partial : forall r F os, 16 <= F -> (Z.of_nat F < 2 ^ 32)%Z -> Forall (op_ok r) os ->
  all_removes_stored F [] os = true ->
  let '(answers, b) := run block_step (initialize F) os in
  let '(expected, l) := run (bag_step F) [] os in
  answers = expected /\ Permutation (items b) l /\ valid r b /\ no_overlap b /\ restore_block b = Ok b.
Proof.
  intros r F os HF HF' Ho G. pose proof (run_spec r os (initialize F) [] (valid_init r F HF HF') (Permutation_refl _) Ho G) as H.
  cbn [bfull initialize] in H. fold (initialize F) in H.
  destruct (run block_step (initialize F) os) as [ans b]. change (bfull (initialize F)) with F in H.
  destruct (run (bag_step F) [] os) as [ex l]. cbn [fst snd] in H. destruct H as (H1 & H2 & H3 & _).
  split; [exact H1|]. split; [exact H2|]. split; [exact H3|]. split; [exact (valid_no_overlap r b H3)|exact (restore_spec r b H3)].
Qed.
Print Assumptions C28_partial.

Example C28_example :
  let os := [Append (key 5) (str "five"); Append (key 1) (str "one"); Append (key 5) (str "V"); Append (key 5) (str "V");
             Append (key 3) (str "this one does not fit"); Append (key 7) (str "seven"); Remove (key 5) (str "five");
             Remove (key 9) (str "none"); RemoveKey (key 1); RemoveKey (key 4); Append (key 2) (str "two")] in
  Forall (op_ok NoFloats) os /\ all_removes_stored 126 [] os = true /\
  fst (run block_step (initialize 126) os) = [true; true; true; false; false; true; true; false; true; false; true] /\
  items (snd (run block_step (initialize 126) os)) = [(key 7, str "seven"); (key 5, str "V"); (key 2, str "two")].
Proof.
  split; [|split; [vm_compute; reflexivity|split; vm_compute; reflexivity]].
  repeat constructor; cbn; try discriminate; intros H; exact H.
Qed.

(** Lookups in a block in order: whether an item or a key is stored, the items of a key, their number, one of them. *)
Theorem C28_lookup : forall r b k, valid r b -> exact r k ->
  (forall x, contains b k x = has_entry (items b) k x) /\
  contains_index b k = has_key (items b) k /\
  get_items b k = map snd (filter (fun e => equal k (fst e)) (items b)) /\
  item_count b k = length (filter (fun e => equal k (fst e)) (items b)) /\
  (forall p, get_item b k p = nth_error (map snd (filter (fun e => equal k (fst e)) (items b))) p).
Proof. exact lookup_spec. Qed.
Print Assumptions C28_lookup.

(** The reported bounds are the least and the greatest stored key. *)
Theorem C28_bounds : forall r b, valid r b -> items b <> [] ->
  (exists x, In (max_index b, x) (items b)) /\ (exists x, In (min_index b, x) (items b)) /\
  forall e, In e (items b) -> less (max_index b) (fst e) = false /\ less (fst e) (min_index b) = false.
Proof. exact bounds_spec. Qed.
Print Assumptions C28_bounds.

Example C28_lookup_example :
  let b := snd (run block_step (initialize 200) [Append (key 5) (str "five"); Append (key 1) (str "one"); Append (key 5) (str "V")]) in
  valid NoFloats b /\ get_items b (key 5) = [str "V"; str "five"] /\ contains b (key 5) (str "V") = true /\
  contains b (key 1) (str "V") = false /\ min_index b = key 1 /\ max_index b = key 5.
Proof.
  split; [|repeat split; vm_compute; reflexivity].
  refine (proj1 (proj2 (proj2 (run_spec NoFloats [_; _; _] (initialize 200) [] _ (Permutation_refl _) _ _)))).
  - apply valid_init; [lia|reflexivity].
  - repeat constructor; cbn; try discriminate; intros H; exact H.
  - vm_compute. reflexivity.
Qed.

(** Removing an item that is not stored, under a key that is: the answer is that it was removed, one item less is counted,
    and once the block is read back from its bytes a stored item (here 5) is gone. *)
Theorem C28_remove_refuted : exists os k x, Forall (op_ok NoFloats) os /\ exact NoFloats k /\
  let b := snd (run block_step (initialize full_size) os) in
  has_entry (items b) k x = false /\ fst (remove b k x) = true /\ items (snd (remove b k x)) = items b /\
  bcount (snd (remove b k x)) = (bcount b - 1)%Z /\ has_key (items b) (key 5) = true /\
  match restore_block (snd (remove b k x)) with Ok b' => has_key (items b') (key 5) = false | Err _ => False end.
Proof.
  exists [Append (key 1) (str "one"); Append (key 5) (str "five")], (key 1), (str "uno").
  split; [repeat constructor; cbn; try discriminate; intros H; exact H|].
  split; [cbn; split; [split; vm_compute; congruence|exact I]|].
  cbv zeta. split; [vm_compute; reflexivity|]. split; [vm_compute; reflexivity|]. split; [vm_compute; reflexivity|].
  split; [vm_compute; reflexivity|]. split; vm_compute; reflexivity.
Qed.
Print Assumptions C28_remove_refuted.

(** * C29 *)

(** Splitting a block in order for a new item: the resulting blocks (this block, the first and perhaps a second new one)
    are in order, follow each other in the order of keys, and together hold the previous items and the new one.
    Missing: the cases in which the estimate of free space is wrong; then exactly the new item is lost. *)
Theorem C29_partial : forall r b k x, valid r b -> exact r k -> x <> [] -> has_entry (items b) k x = false ->
  (Z.of_nat (length x) + 40 + 262144 <= 2 ^ 32)%Z ->
  exists t f s, split_append b k x = Ok (t, f, s) /\
    Permutation (items t ++ items f ++ items_opt s) (if estimate_right b k x then (k, x) :: items b else items b) /\
    valid r t /\ valid r f /\ (forall b', s = Some b' -> valid r b') /\
    above (items f) (items t) /\ above (items_opt s) (items f) /\ above (items_opt s) (items t) /\
    bfull t = bfull b.
Proof.
  intros r b k x V Hk Hx He Hs. destruct (split_append_spec r b k x V Hk Hx He Hs) as (t & f & s & H1 & H2 & H3 & H4 & H5 & H6 & H7 & H8 & H9 & _).
  exists t, f, s. auto 12.
Qed.
Print Assumptions C29_partial.

(** Nothing is lost when every item, with the new one, takes at most a quarter of the block. *)
Theorem C29_quarter_partial : forall r b k x, valid r b -> exact r k -> x <> [] -> has_entry (items b) k x = false ->
  Forall (fun e => quarter (bfull b) (snd e)) (items b) -> quarter (bfull b) x -> (4 * Z.of_nat (bfull b) <= 2 ^ 32)%Z ->
  bfull b < room ((k, x) :: items b) ->
  exists t f s, split_append b k x = Ok (t, f, s) /\
    Permutation (items t ++ items f ++ items_opt s) ((k, x) :: items b).
Proof.
  intros r b k x V Hk Hx He Q Qx Hs NF.
  destruct (split_append_spec r b k x V Hk Hx He) as (t & f & s & H1 & H2 & _).
  { unfold quarter in Qx. assert (Z.of_nat (length x) * 4 <= Z.of_nat (bfull b))%Z by lia. lia. }
  rewrite (quarter_estimate r b k x V Q Qx NF) in H2. exists t, f, s. auto.
Qed.
Print Assumptions C29_quarter_partial.

Definition filled (F : nat) (l : list (Z * nat)) : block :=
  fold_left (fun b '(z, n) => snd (append b (key z) (repeat "a"%char n))) l (initialize F).

Lemma filled_valid F l : 16 <= F -> (Z.of_nat F < 2 ^ 32)%Z ->
  Forall (fun '(z, n) => exact NoFloats (key z) /\ n <> 0) l -> valid NoFloats (filled F l).
Proof.
  intros H1 H2 H. unfold filled. assert (V := valid_init NoFloats F H1 H2). revert V. generalize (initialize F) as b.
  induction H as [|[z n] l [Hz Hn] H IH]; intros b V; cbn [fold_left]; [exact V|].
  apply IH. apply (append_spec NoFloats b (key z) (repeat "a"%char n) V Hz). destruct n; [congruence|discriminate].
Qed.

Example C29_example :
  let b := filled 400 [(1%Z, 40); (2%Z, 50); (3%Z, 60); (4%Z, 30); (5%Z, 20)] in
  let x := repeat "x"%char 60 in
  valid NoFloats b /\ has_entry (items b) (key 3) x = false /\ Forall (fun e => quarter (bfull b) (snd e)) (items b) /\
  quarter (bfull b) x /\ bfull b < room ((key 3, x) :: items b) /\
  match split_append b (key 3) x with
  | Ok (t, f, s) => map fst (items t) = [key 3; key 3; key 2; key 1] /\ map fst (items f) = [key 5; key 4] /\ s = None
  | Err _ => False
  end.
Proof.
  cbv zeta. split. { apply filled_valid; [lia|reflexivity|]. repeat constructor; cbn; try discriminate; intros H; exact H. }
  split; [vm_compute; reflexivity|]. split; [|split; [|split]].
  - apply Forall_forall. intros e I. unfold quarter. apply Nat.leb_le. revert e I. apply forallb_forall. vm_compute. reflexivity.
  - apply Nat.leb_le. vm_compute. reflexivity.
  - apply Nat.ltb_lt. vm_compute. reflexivity.
  - vm_compute. auto.
Qed.

(** The new item is lost.  First: it is bigger than the free space by less than 16 bytes, and the whole content moves to
    the new block. *)
Theorem C29_window_refuted : exists l k x, let b := filled full_size l in
  valid NoFloats b /\ exact NoFloats k /\ has_entry (items b) k x = false /\ bfull b < room ((k, x) :: items b) /\
  room [(k, x)] <= bfull b /\
  match split_append b k x with Ok (t, f, s) => has_key (items t ++ items f ++ items_opt s) k = false | Err _ => False end.
Proof.
  exists [(1%Z, N.to_nat 100000)], (key 3), (repeat "x"%char (N.to_nat 162090)). cbv zeta.
  split. { apply filled_valid; [apply Nat.leb_le; vm_compute; reflexivity|vm_compute; reflexivity|].
           repeat constructor; try discriminate. }
  split; [cbn; split; [split; vm_compute; congruence|exact I]|].
  split; [vm_compute; reflexivity|]. split; [apply Nat.ltb_lt; vm_compute; reflexivity|].
  split; [apply Nat.leb_le; vm_compute; reflexivity|]. vm_compute. reflexivity.
Qed.
Print Assumptions C29_window_refuted.

(** Second: the space of the item at the split point is counted as freed, though it stays. *)
Theorem C29_half_refuted : exists l k x, let b := filled full_size l in
  valid NoFloats b /\ exact NoFloats k /\ has_entry (items b) k x = false /\ bfull b < room ((k, x) :: items b) /\
  room [(k, x)] + 16 <= bfull b /\
  match split_append b k x with Ok (t, f, s) => has_key (items t ++ items f ++ items_opt s) k = false | Err _ => False end.
Proof.
  exists [(3%Z, N.to_nat 140000); (2%Z, N.to_nat 100000)], (key 1), (repeat "x"%char (N.to_nat 170000)). cbv zeta.
  split. { apply filled_valid; [apply Nat.leb_le; vm_compute; reflexivity|vm_compute; reflexivity|].
           repeat constructor; try discriminate. }
  split; [cbn; split; [split; vm_compute; congruence|exact I]|].
  split; [vm_compute; reflexivity|]. split; [apply Nat.ltb_lt; vm_compute; reflexivity|].
  split; [apply Nat.leb_le; vm_compute; reflexivity|]. vm_compute. reflexivity.
Qed.
Print Assumptions C29_half_refuted.

(** * C63 *)

(** Merging a block with one whose keys are not below its own: the result holds the items of both and is in order.
    Missing: other blocks whose keys are not below the own ones, and an empty own block. *)
Theorem C63_partial : forall r b o, valid r b -> valid r o -> items b <> [] -> above (items o) (items b) ->
  (forall e, In e (items o) -> has_entry (items b) (fst e) (snd e) = false) ->
  room (items o ++ items b) <= bfull b ->
  exists b', merge b o = Ok b' /\ items b' = items o ++ items b /\ valid r b' /\ bfull b' = bfull b.
Proof. exact merge_spec. Qed.
Print Assumptions C63_partial.

Example C63_example :
  let b := filled 400 [(1%Z, 4); (2%Z, 5)] in let o := filled 400 [(2%Z, 6); (4%Z, 7)] in
  valid NoFloats b /\ valid NoFloats o /\ above (items o) (items b) /\
  match merge b o with Ok b' => map fst (items b') = [key 4; key 2; key 2; key 1] /\ buniq b' = 3%Z | Err _ => False end.
Proof.
  cbv zeta. split. { apply filled_valid; [lia|reflexivity|]. repeat constructor; cbn; try discriminate; intros H; exact H. }
  split. { apply filled_valid; [lia|reflexivity|]. repeat constructor; cbn; try discriminate; intros H; exact H. }
  split; [|vm_compute; auto].
  intros e e' I I'. vm_compute in I, I'. destruct I as [<-|[<-|[]]]; destruct I' as [<-|[<-|[]]]; reflexivity.
Qed.

(** Merging with a block of smaller keys: the metadata of an own item are moved on to foreign bytes. *)
Theorem C63_smaller_refuted : exists lb lo, let b := filled full_size lb in let o := filled full_size lo in
  valid NoFloats b /\ valid NoFloats o /\ room (items o ++ items b) <= bfull b /\ above (items b) (items o) /\
  match merge b o with
  | Ok b' => existsb (fun e => negb (has_entry (items b') (fst e) (snd e))) (items b) = true
  | Err _ => False
  end.
Proof.
  exists [(5%Z, 4); (6%Z, 2)], [(1%Z, 3)]. cbv zeta.
  split. { apply filled_valid; [apply Nat.leb_le; vm_compute; reflexivity|vm_compute; reflexivity|].
           repeat constructor; cbn; try discriminate; intros H; exact H. }
  split. { apply filled_valid; [apply Nat.leb_le; vm_compute; reflexivity|vm_compute; reflexivity|].
           repeat constructor; cbn; try discriminate; intros H; exact H. }
  split; [apply Nat.leb_le; vm_compute; reflexivity|].
  split; [|vm_compute; reflexivity].
  assert (E1 : map fst (items (filled full_size [(5%Z, 4); (6%Z, 2)])) = [key 6; key 5]) by (vm_compute; reflexivity).
  assert (E2 : map fst (items (filled full_size [(1%Z, 3)])) = [key 1]) by (vm_compute; reflexivity).
  intros e e' I I'. apply (in_map fst) in I, I'. rewrite E1 in I. rewrite E2 in I'.
  destruct I as [<-|[<-|[]]]; destruct I' as [<-|[]]; reflexivity.
Qed.
Print Assumptions C63_smaller_refuted.

Lemma one_valid F k x : 16 <= F -> (Z.of_nat F < 2 ^ 32)%Z -> exact NoFloats k -> x <> [] ->
  valid NoFloats (snd (append (initialize F) k x)).
Proof. intros H1 H2 Hk Hx. exact (proj1 (proj2 (proj2 (append_spec NoFloats (initialize F) k x (valid_init NoFloats F H1 H2) Hk Hx)))). Qed.

(** Merging with a block whose keys lie between the own ones: its items are read from the own bytes. *)
Theorem C63_between_refuted : exists lb lo, let b := filled full_size lb in
  let o := snd (append (initialize full_size) (key lo) (str "zzz")) in
  valid NoFloats b /\ valid NoFloats o /\ room (items o ++ items b) <= bfull b /\
  match merge b o with
  | Ok b' => has_entry (items b') (key lo) (str "zzz") = false /\ has_entry (items b') (key lo) (str "aaa") = true
  | Err _ => False
  end.
Proof.
  exists [(5%Z, 4); (1%Z, 2)], 3%Z. cbv zeta.
  assert (S : 16 <= full_size /\ (Z.of_nat full_size < 2 ^ 32)%Z).
  { split; [apply Nat.leb_le; vm_compute; reflexivity|vm_compute; reflexivity]. }
  split. { apply filled_valid; [apply S|apply S|]. repeat constructor; cbn; try discriminate; intros H; exact H. }
  split. { apply one_valid; [apply S|apply S|cbn; split; [split; vm_compute; congruence|exact I]|discriminate]. }
  split; [apply Nat.leb_le; vm_compute; reflexivity|]. vm_compute. split; reflexivity.
Qed.
Print Assumptions C63_between_refuted.

(** * C64 *)

(** Splitting off a number of items: the items with the greatest keys go to a new block, the others stay. *)
Theorem C64_split : forall r b n, valid r b -> n <= length (items b) ->
  exists nb b1, split b n = Ok (nb, b1) /\ Permutation (items nb) (firstn n (items b)) /\ items b1 = skipn n (items b) /\
    valid r nb /\ valid r b1 /\ bfull nb = bfull b /\ bfull b1 = bfull b.
Proof. exact split_spec. Qed.
Print Assumptions C64_split.

(** Splitting off a number of keys: that many keys, the greatest, go to a new block with all their items. *)
Theorem C64_split_keys : forall r b n, valid r b -> n <= distinct (map fst (items b)) ->
  exists nb b1, split_uniques b n = Ok (nb, b1) /\ Permutation (items nb ++ items b1) (items b) /\
    distinct (map fst (items nb)) = n /\
    (forall e e', In e (items nb) -> In e' (items b1) -> less (fst e') (fst e) = true) /\
    valid r nb /\ valid r b1 /\ bfull nb = bfull b /\ bfull b1 = bfull b.
Proof. exact split_uniques_spec. Qed.
Print Assumptions C64_split_keys.

Example C64_example :
  let b := filled 400 [(1%Z, 4); (2%Z, 5); (2%Z, 6); (3%Z, 1); (3%Z, 2)] in
  valid NoFloats b /\ distinct (map fst (items b)) = 3 /\
  match split b 3 with Ok (nb, b1) => map fst (items nb) = [key 3; key 3; key 2] /\ buniq b1 = 2%Z | Err _ => False end /\
  match split_uniques b 2 with
  | Ok (nb, b1) => map fst (items nb) = [key 3; key 3; key 2; key 2] /\ map fst (items b1) = [key 1]
  | Err _ => False
  end.
Proof.
  cbv zeta. split. { apply filled_valid; [lia|reflexivity|]. repeat constructor; cbn; try discriminate; intros H; exact H. }
  split; [vm_compute; reflexivity|]. split; vm_compute; auto.
Qed.
