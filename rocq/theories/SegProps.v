(** The segment tree: finding the blocks of a key (C30), histories of operations and lookups (C65), removals of items that
    are not stored and counters (C54). *)
From Verif Require Import Bytes Outcome PhysModel PhysSpec BlockModel BlockSpec SegModel SegSpec SegProofs.
From Coq Require Import ZArith Lia Sorting.Permutation.

Definition key (z : Z) : pval := PInt I64 z.
Definition big (c : ascii) (n : N) : list byte := repeat c (N.to_nat n).
Definition never (a b : nat) : bool := false.
Definition always (a b : nat) : bool := true.

(** * C30 *)

(** For nodes whose bounds are in order: the range found for a key is exactly the nodes within whose bounds it lies. *)
Theorem C30_range : forall r l k i j, ordered r l -> exact r k -> find_range l k = (i, j) ->
  i <= j <= length l /\ forall p n, nth_error l p = Some n -> (i <= p < j <-> may_hold n k).
Proof. exact range_spec. Qed.
Print Assumptions C30_range.

(** The bounds are in order in every tree that the operations build (C65). *)
Theorem C30_in_order : forall r t l, tree_holds r t l -> ordered r (nodes t).
Proof. intros r t l (bs & H & B & _). exact (blocks_ordered r _ bs H B). Qed.
Print Assumptions C30_in_order.

Definition bounded (a b : Z) : node := {| nblk := None; ndisk := None; nmod := false; nmin := key a; nmax := key b |}.
Example C30_example :
  let l := [bounded 1 3; bounded 3 3; bounded 3 5; bounded 9 9] in
  ordered NoFloats l /\ find_range l (key 3) = (0, 3) /\ find_range l (key 2) = (0, 1) /\ find_range l (key 7) = (3, 3) /\ find_range l (key 10) = (4, 4).
Proof.
  assert (X : forall z, (- 2 ^ 63 <= z < 2 ^ 63)%Z -> exact NoFloats (key z)) by (intros z H; split; [exact H|exact I]).
  cbn zeta. split; [|repeat split]. split.
  - repeat (constructor; [split; [apply X; lia|split; [apply X; lia|reflexivity]]|]). constructor.
  - repeat constructor.
Qed.

(** * C65 *)

(** After any appends and removals and any number of times writing the tree and reading it back, starting from an empty
    tree: the answers and the stored items are those of a plain collection, and [count] is their number.  Proved for items
    of at most a quarter of a block, removals of stored items, and removals of keys before the first reading back.
    Missing: the cases refuted below and in C54, string keys (the bounds are kept in [string_storage_]), running out of
    memory. *)
Theorem C65_history_partial : forall r sparse os, Forall (top_ok r) os -> careful true [] os = true ->
  exists t, seg_run sparse empty_tree os = Ok (fst (col_run [] os), t) /\ tree_holds r t (snd (col_run [] os)).
Proof.
  intros r sparse os F C. destruct (run_tree r sparse os empty_tree [] true (empty_holds r)) as (t & E & T & _); trivial.
  - intros _. constructor.
  - eauto.
Qed.
Print Assumptions C65_history_partial.

(** The number of different keys, for histories without removals of single items. *)
Theorem C65_unique_partial : forall r sparse os, Forall (top_ok r) os -> careful true [] os = true -> forallb no_removal os = true ->
  exists t, seg_run sparse empty_tree os = Ok (fst (col_run [] os), t) /\
    ucount t = u64 (Z.of_nat (distinct (map fst (snd (col_run [] os))))).
Proof.
  intros r sparse os F C N. destruct (run_tree r sparse os empty_tree [] true (empty_holds r)) as (t & E & T & _ & U); trivial.
  - intros _. constructor.
  - exists t. split; [exact E|]. apply U; trivial.
Qed.
Print Assumptions C65_unique_partial.

(** Lookups, as long as everything is in memory or the key fits one block. *)
Theorem C65_lookup_partial : forall r t l k, tree_holds r t l -> exact r k -> all_in_memory t \/ one_block t k ->
  (forall x, seg_contains t k x = Ok (has_entry l k x)) /\
  seg_contains_key t k = Ok (has_key l k) /\
  seg_item_count t k = Ok (length (filter (fun e => equal k (fst e)) l)) /\
  (exists s, seg_get_items t k = Ok s /\ Permutation s (map snd (filter (fun e => equal k (fst e)) l))) /\
  (exists s, (forall p, seg_get_item t k p = Ok (nth_error s p)) /\ Permutation s (map snd (filter (fun e => equal k (fst e)) l))).
Proof. exact lookup_tree. Qed.
Print Assumptions C65_lookup_partial.

(** Everything stays in memory in histories without reading back. *)
Theorem C65_in_memory : forall r sparse os t, Forall (top_ok r) os -> careful true [] os = true ->
  forallb (fun o => match o with TReload => false | _ => true end) os = true ->
  seg_run sparse empty_tree os = Ok (fst (col_run [] os), t) -> all_in_memory t.
Proof.
  intros r sparse os t F C N E. destruct (run_tree r sparse os empty_tree [] true (empty_holds r)) as (t' & E' & _ & M & _); trivial.
  - intros _. constructor.
  - rewrite E in E'. injection E' as ->. apply M. exact N.
Qed.
Print Assumptions C65_in_memory.

(** Two blocks, one split, a removal that merges, an item refused, a key removed. *)
Definition work : list top :=
  [TAppend (key 1) (big "a" 60000); TAppend (key 5) (big "b" 60000); TAppend (key 3) (big "c" 60000); TAppend (key 3) (big "d" 60000);
   TAppend (key 2) (big "e" 60000); TAppend (key 4) (big "f" 60000); TAppend (key 3) (big "d" 60000); TRemove (key 5) (big "b" 60000);
   TRemoveKey (key 3); TReload; TAppend (key 3) (str "x"); TRemove (key 4) (big "f" 60000); TAppend (key 2) (big "e" 60000)].
Example C65_example :
  Forall (top_ok NoFloats) work /\ careful true [] work = true /\
  fst (col_run [] work) = [true; true; true; true; true; true; false; true; true; true; true; true; false] /\
  map fst (snd (col_run [] work)) = [key 3; key 2; key 1] /\
  match seg_run always empty_tree (firstn 6 work) with Ok (_, t) => map (fun n => (nmin n, nmax n)) (nodes t) | Err _ => [] end =
    [(key 1, key 2); (key 3, key 5)] /\
  match seg_run always empty_tree work with Ok (_, t) => (length (nodes t), icount t) = (1, 3%Z) | Err _ => False end.
Proof.
  split.
  { assert (Q : forall c, quarter default_size (big c 60000)) by (intros c; unfold quarter, big; rewrite repeat_length; apply Nat.leb_le; vm_compute; reflexivity).
    assert (Q' : quarter default_size (str "x")) by (apply Nat.leb_le; vm_compute; reflexivity).
    assert (X : forall z, (- 2 ^ 63 <= z < 2 ^ 63)%Z -> exact NoFloats (key z)) by (intros z H; split; [exact H|exact I]).
    assert (NE : forall c, big c 60000 <> []) by (intros c E; apply (f_equal (@length _)) in E; unfold big in E; rewrite repeat_length in E; cbn [length] in E; lia).
    unfold work. repeat (constructor; [cbn [top_ok]; auto; try (apply X; lia); try (split; [apply X; lia|split; [apply NE || discriminate|trivial]])|]). constructor. }
  split; [vm_compute; reflexivity|]. split; [vm_compute; reflexivity|]. split; [vm_compute; reflexivity|].
  split; vm_compute; reflexivity.
Qed.

(** An item of more than a quarter of a block can get lost: the append answers true, the counter counts it, and it is not
    there (C29). *)
Theorem C65_lost_refuted : exists os k x, match seg_run never empty_tree os with
  | Ok (answers, t) => answers = map (fun _ => true) os /\ In (TAppend k x) os /\ icount t = Z.of_nat (length os) /\
      seg_contains t k x = Ok false /\ seg_item_count t k = Ok 0
  | Err _ => False end.
Proof.
  exists [TAppend (key 8) (big "a" 140000); TAppend (key 6) (big "b" 60000); TAppend (key 2) (big "c" 50000); TAppend (key 4) (big "d" 170000)],
    (key 4), (big "d" 170000).
  match goal with |- context [In (TAppend ?k ?x) ?l] => assert (I : In (TAppend k x) l) by (right; right; right; left; reflexivity) end.
  revert I. match goal with |- In ?a ?b -> _ => generalize (In a b) end. intros Q I. vm_compute. auto.
Qed.
Print Assumptions C65_lost_refuted.

(** After reading back, a key that reaches over two blocks cannot be looked up: instead of the second block the first one
    is loaded again, and a null pointer is followed. *)
Definition two_blocks : res (list bool * tree) := seg_run never empty_tree [TAppend (key 2) (big "a" 200000); TAppend (key 2) (big "b" 200000)].
Theorem C65_reload_refuted : match two_blocks with
  | Ok (_, t) => length (nodes t) = 2 /\ seg_item_count t (key 2) = Ok 2 /\
      (let t' := flush_and_load t in seg_item_count t' (key 2) = Err UB /\
         match seg_get_items t' (key 2) with Err UB => True | _ => False end /\
         seg_contains t' (key 2) (str "c") = Err UB /\
         match seg_remove_key t' (key 2) with Err UB => True | _ => False end)
  | Err _ => False end.
Proof. vm_compute. repeat split; reflexivity. Qed.
Print Assumptions C65_reload_refuted.

(** * C54 *)

(** Removing a stored item answers true, takes away this item only, and lowers [count] by one. *)
Theorem C54_stored_partial : forall r sparse t l k x, tree_holds r t l -> exact r k -> has_entry l k x = true ->
  exists t', seg_remove sparse t k x = Ok (true, t') /\ tree_holds r t' (filter (fun e => negb (is_entry k x e)) l) /\
    icount t' = u64 (icount t - 1).
Proof.
  intros r sparse t l k x T Hk H. destruct (remove_tree r sparse t l k x T Hk H) as (t' & E & T' & _). exists t'. split; [exact E|].
  split; [exact T'|]. unfold seg_remove in E. destruct (nodes t); [discriminate|]. destruct (find_range _ _) as [i j]. destruct (i =? j).
  - destruct (i =? _); [discriminate|]. destruct (load_at _ _) as [[b l']|]; cbn [rbind] in E; [|discriminate].
    destruct (contains_index b k); cbn [negb] in E; [|discriminate]. destruct (remove b k x) as [[|] b']; cbn [negb] in E; [|discriminate].
    injection E as <-. reflexivity.
  - destruct (find_item _ _ _ _ _) as [[[[p b] f] l']|]; cbn [rbind] in E; [|discriminate].
    destruct (f && _); [injection E as <-; reflexivity|]. destruct (merge_around _ _ _ _); cbn [rbind] in E; [|discriminate]. injection E as <-. reflexivity.
Qed.
Print Assumptions C54_stored_partial.

(** An item outside the bounds of all blocks: nothing happens. *)
Theorem C54_outside_partial : forall r sparse t l k x, tree_holds r t l -> exact r k -> (forall n, In n (nodes t) -> ~ may_hold n k) ->
  exists t', seg_remove sparse t k x = Ok (false, t') /\ tree_holds r t' l /\ icount t' = icount t /\ ucount t' = ucount t.
Proof. exact remove_outside. Qed.
Print Assumptions C54_outside_partial.

(** An item that is not stored, with a key between the bounds of a block: the answer is true and [count] is one too low,
    whatever the key; nothing is removed. *)
Theorem C54_absent_refuted : exists os k x, match seg_run never empty_tree os with
  | Ok (_, t) => seg_contains_key t k = Ok false /\ icount t = 2%Z /\
      match seg_remove never t k x with
      | Ok (a, t') => a = true /\ icount t' = 1%Z /\ seg_item_count t' (key 1) = Ok 1 /\ seg_item_count t' (key 3) = Ok 1
      | Err _ => False end
  | Err _ => False end.
Proof. exists [TAppend (key 1) (str "a"); TAppend (key 3) (str "b")], (key 2), (str "x"). vm_compute. repeat split; reflexivity. Qed.
Print Assumptions C54_absent_refuted.

(** The number of different keys: with a key in two blocks, removing one of its items counts the key as gone. *)
Theorem C54_unique_refuted : match two_blocks with
  | Ok (_, t) => ucount t = 1%Z /\
      match seg_remove never t (key 2) (big "a" 200000) with
      | Ok (a, t') => a = true /\ ucount t' = 0%Z /\ seg_item_count t' (key 2) = Ok 1
      | Err _ => False end
  | Err _ => False end.
Proof. vm_compute. repeat split; reflexivity. Qed.
Print Assumptions C54_unique_refuted.
