(** Segment trees: dividing a full leaf, balancing and joining neighbours (C66). *)
From Verif Require Import Bytes Outcome PhysModel PhysSpec BlockModel BlockSpec BlockProofs SegModel SegSpec SegProofs SegCutModel SegCutSpec SegCutProofs SegCutProofs2.
From Coq Require Import ZArith Lia Sorting.Permutation Sorting.Sorted.

(** * Dividing *)

(** Half of the keys, rounded down, go to the new tree with all their items: nothing is lost or doubled, every key that
    stays is less than every key that goes, both trees hold their part in memory, the counters are right; and what is
    later read back from the files is right if every block had been changed since it was last written.
    Missing: the cases refuted below (a key in two blocks, a block written before, NULL as a key). *)
Theorem C66_split_partial : forall r t l, tree_holds r t l -> unshared t -> keys_counted t l -> no_null l -> l <> [] ->
  exists t1 t2 l1 l2, seg_split t = Ok (t1, t2) /\ Permutation (l1 ++ l2) l /\ below l1 l2 /\
    kinds l2 = kinds l / 2 /\ kinds l1 = kinds l - kinds l / 2 /\
    tree_holds r (in_memory t1) l1 /\ tree_holds r t2 l2 /\ keys_counted t1 l1 /\ keys_counted t2 l2 /\ unshared t1 /\ unshared t2 /\
    (Forall unsaved (nodes t) -> tree_holds r t1 l1).
Proof. exact split_tree. Qed.
Print Assumptions C66_split_partial.

(** Looking up and scanning a tree as it is in memory. *)
Theorem C66_lookup : forall r t l k, tree_holds r (in_memory t) l -> unshared t -> exact r k ->
  (forall x, seg_contains t k x = Ok (has_entry l k x)) /\ seg_contains_key t k = Ok (has_key l k) /\
  seg_item_count t k = Ok (length (filter (fun e => equal k (fst e)) l)) /\
  (exists s, seg_get_items t k = Ok s /\ Permutation s (map snd (filter (fun e => equal k (fst e)) l))) /\
  (exists s, (forall p, seg_get_item t k p = Ok (nth_error s p)) /\ Permutation s (map snd (filter (fun e => equal k (fst e)) l))) /\
  (exists s, seg_scan t = Ok s /\ Permutation s l /\ StronglySorted (fun e e' : pval * list byte => less (fst e') (fst e) = false) s).
Proof. exact lookup_cut. Qed.
Print Assumptions C66_lookup.

(** A tree of one block that has been written, with at least two keys: after dividing it, writing both trees and reading
    them back, the old file still gives all the items, those that moved to the new tree included. *)
Theorem C66_saved_refuted : forall r t l n, tree_holds r t l -> nodes t = [n] -> nmod n = false ->
  keys_counted t l -> no_null l -> 2 <= kinds l ->
  exists t1 t2 l1 l2 s1 s2, seg_split t = Ok (t1, t2) /\ Permutation (l1 ++ l2) l /\
    tree_holds r (in_memory t1) l1 /\ tree_holds r t2 l2 /\ l2 <> [] /\
    seg_scan (flush_and_load t1) = Ok s1 /\ Permutation s1 l /\ seg_scan (flush_and_load t2) = Ok s2 /\ Permutation s2 l2.
Proof. exact split_saved. Qed.
Print Assumptions C66_saved_refuted.

(** * Balancing *)

(** The tree with fewer keys takes so many from its neighbour that both have the same number, give or take one. *)
Theorem C66_balance_partial : forall r t o lt lo, tree_holds r t lt -> tree_holds r o lo -> unshared t -> unshared o ->
  keys_counted t lt -> keys_counted o lo -> no_null lo -> lt <> [] -> lo <> [] -> kinds lt <= kinds lo ->
  below lt lo \/ below lo lt ->
  exists t' o' lt' lo', seg_balance t o = Ok (t', o') /\ Permutation (lt' ++ lo') (lt ++ lo) /\ incl lt lt' /\
    (below lt lo -> below lt' lo') /\ (below lo lt -> below lo' lt') /\
    kinds lt' = (kinds lt + kinds lo) / 2 /\ kinds lo' = kinds lt + kinds lo - (kinds lt + kinds lo) / 2 /\
    tree_holds r t' lt' /\ tree_holds r (in_memory o') lo' /\ keys_counted t' lt' /\ keys_counted o' lo' /\ unshared t' /\ unshared o' /\
    (Forall unsaved (nodes o) \/ below lt lo -> tree_holds r o' lo').
Proof. exact balance_tree. Qed.
Print Assumptions C66_balance_partial.

(** * Joining *)

(** The tree takes everything its neighbour holds. *)
Theorem C66_merge : forall r t o lt lo, tree_holds r t lt -> tree_holds r o lo -> lt <> [] -> lo <> [] -> below lt lo \/ below lo lt ->
  exists t', seg_merge t o = Ok (t', empty_tree) /\ tree_holds r t' (lt ++ lo) /\
    (keys_counted t lt -> keys_counted o lo -> ucount t' = Z.of_nat (kinds (lt ++ lo))) /\ (unshared t -> unshared o -> unshared t').
Proof. exact merge_tree. Qed.
Print Assumptions C66_merge.

(** * Cases *)

(** Four keys in two blocks. *)
Definition low_part : bag := [(key 1, str "a"); (key 2, str "b"); (key 2, str "c")].
Definition high_part : bag := [(key 3, str "d"); (key 4, str "e")].
Example C66_case :
  exists t, tree_holds NoFloats t (low_part ++ high_part) /\ unshared t /\ keys_counted t (low_part ++ high_part) /\
    no_null (low_part ++ high_part) /\ Forall unsaved (nodes t) /\ length (nodes t) = 2.
Proof.
  destruct (blocks_exist [low_part; high_part]) as (bs & H).
  { constructor; [|constructor; [|constructor]]; (split; [|split; [apply once_check; vm_compute; reflexivity|apply small_room; vm_compute; reflexivity]]);
      repeat (constructor; [split; [apply key_exact; lia|discriminate]|]); constructor. }
  destruct (tree_exists [low_part; high_part] bs 4%Z H) as (T & U & S).
  - repeat (constructor; [discriminate|]). constructor.
  - repeat constructor. apply above_check. vm_compute. reflexivity.
  - apply once_check. vm_compute. reflexivity.
  - apply small_items. vm_compute. reflexivity.
  - eexists. split; [exact T|]. split; [apply U; repeat constructor; apply below_check; vm_compute; reflexivity|].
    split; [split; reflexivity|]. split; [intros e I; repeat (destruct I as [<-|I]; [discriminate|]); destruct I|]. split; [exact S|].
    cbn [nodes tree_of]. rewrite map_length, <- (forall2_length _ _ _ H). reflexivity.
Qed.

(** A key whose items reach over two blocks ends up in both trees: only the least key of a block is compared with the key
    before (408, 467), not the greatest.  The B+tree looks in one of them only. *)
Theorem C66_shared_refuted : exists t l t1 t2 l1 l2 k,
  tree_holds NoFloats t l /\ keys_counted t l /\ no_null l /\ 2 <= kinds l /\ Forall unsaved (nodes t) /\
  seg_split t = Ok (t1, t2) /\ tree_holds NoFloats t1 l1 /\ tree_holds NoFloats t2 l2 /\ has_key l1 k = true /\ has_key l2 k = true.
Proof.
  set (la := [(key 1, str "a"); (key 2, str "b")]). set (lb := [(key 2, str "c")]).
  destruct (blocks_exist [la; lb]) as (bs & H).
  { constructor; [|constructor; [|constructor]]; (split; [|split; [apply once_check; vm_compute; reflexivity|apply small_room; vm_compute; reflexivity]]);
      repeat (constructor; [split; [apply key_exact; lia|discriminate]|]); constructor. }
  destruct (tree_exists [la; lb] bs 2%Z H) as (T & _ & S).
  - repeat (constructor; [discriminate|]). constructor.
  - repeat constructor. apply above_check. vm_compute. reflexivity.
  - apply once_check. vm_compute. reflexivity.
  - apply small_items. vm_compute. reflexivity.
  - inversion H as [|? a ? bs1 Ha H1 E1 E2]; subst. inversion H1 as [|? b ? bs2 Hb H2]; subst. inversion H2; subst.
    assert (Xa : Forall (fun e => exact NoFloats (fst e)) la) by (repeat (constructor; [apply key_exact; lia|]); constructor).
    assert (Xb : Forall (fun e => exact NoFloats (fst e)) lb) by (repeat (constructor; [apply key_exact; lia|]); constructor).
    pose proof (uniq_of a la Ha Xa) as Ua. pose proof (uniq_of b lb Hb Xb) as Ub. pose proof (count_of b lb Hb) as Cb.
    change (kinds la) with 2 in Ua. change (kinds lb) with 1 in Ub. change (length lb) with 1 in Cb.
    assert (Ma : max_index a = key 2).
    { apply (max_of a la); [exact Ha|right; left; reflexivity|]. intros k [<-|[<-|[]]]; [discriminate|reflexivity]. }
    assert (Mi : min_index a = key 1).
    { apply (min_of a la); [exact Ha|left; reflexivity| |]; intros k [<-|[<-|[]]]; try reflexivity. discriminate. }
    assert (Mb : max_index b = key 2) by (apply (max_of b lb); [exact Hb|left; reflexivity|]; intros k [<-|[]]; reflexivity).
    assert (Mj : min_index b = key 2) by (apply (min_of b lb); [exact Hb|left; reflexivity| |]; intros k [<-|[]]; reflexivity).
    exists (tree_of [a; b] (u64 (Z.of_nat (length (concat [la; lb])))) 2), (la ++ lb),
      {| nodes := [new_node a]; icount := 2; ucount := 1 |}, {| nodes := [new_node b]; icount := 1; ucount := 1 |}, la, lb, (key 2).
    split; [exact T|]. split; [split; reflexivity|]. split; [intros e I; repeat (destruct I as [<-|I]; [discriminate|]); destruct I|].
    split; [vm_compute; lia|]. split; [exact S|]. split.
    { unfold seg_split. cbn [nodes tree_of map length take_high ucount icount]. change (2 / 2)%Z with 1%Z.
      unfold load_at at 1. cbn [nth_error nblk new_node rbind]. rewrite Mb, Mj, Ub, Cb. cbn [one_if]. 
      change (equal PNull (key 2)) with false. cbn [one_if]. change (u64 (Z.of_nat 1 - 0)) with 1%Z. change (1 <=? 1)%Z with true. cbn [Z.sub].
      cbn [nodes tree_of map length take_high ucount icount erase firstn skipn app Nat.add]. unfold load_at. cbn [nth_error nblk new_node rbind].
      rewrite Ma, Mi, Ua. change (equal (key 2) (key 2)) with true. change (equal (key 2) (key 1)) with false. cbn [one_if].
      change (u64 (Z.of_nat 2 - 1)) with 1%Z. change (1 <=? 1 + - (1))%Z with false. change (u64 (1 + - (1) + 0)) with 0%Z. cbn [Z.eqb orb]. reflexivity. }
    split; [|split; [|split; reflexivity]].
    + exists [a]. split; [repeat constructor; try discriminate; intros [Q|Q]; discriminate Q|].
      destruct T as (bs0 & Hn & B & _). clear Hn B. destruct Ha as (Va & Pa & Fa), Hb as (Vb & Pb & Fb).
      split; [|split; [rewrite its_one; exact Pa|reflexivity]].
      apply good_ok; [apply good_one; split; [exact Va|split; [|exact Fa]]; intros Q; rewrite Q in Pa; apply Permutation_nil in Pa; discriminate Pa|].
      rewrite its_one. eapply Permutation_Forall; [apply Permutation_sym, Pa|]. apply small_items. vm_compute. reflexivity.
    + exists [b]. split; [repeat constructor; try discriminate; intros [Q|Q]; discriminate Q|].
      destruct Ha as (Va & Pa & Fa), Hb as (Vb & Pb & Fb).
      split; [|split; [rewrite its_one; exact Pb|reflexivity]].
      apply good_ok; [apply good_one; split; [exact Vb|split; [|exact Fb]]; intros Q; rewrite Q in Pb; apply Permutation_nil in Pb; discriminate Pb|].
      rewrite its_one. eapply Permutation_Forall; [apply Permutation_sym, Pb|]. apply small_items. vm_compute. reflexivity.
Qed.
Print Assumptions C66_shared_refuted.

(** NULL as a key is taken for "no block before": a tree with the keys 1 and NULL loses everything to the new tree, and its
    counter says that a key is left. *)
Theorem C66_null_refuted : exists t l t1 t2,
  tree_holds NoFloats t l /\ unshared t /\ keys_counted t l /\ kinds l = 2 /\ Forall unsaved (nodes t) /\
  seg_split t = Ok (t1, t2) /\ nodes t1 = [] /\ ucount t1 = 1%Z /\ tree_holds NoFloats t2 l /\ ucount t2 = 1%Z.
Proof.
  set (la := [(key 1, str "a"); (PNull, str "b")]).
  assert (Xa : Forall (fun e => exact NoFloats (fst e)) la) by (constructor; [apply key_exact; lia|]; constructor; [exact Logic.I|]; constructor).
  destruct (blocks_exist [la]) as (bs & H).
  { constructor; [|constructor]. split; [|split; [apply once_check; vm_compute; reflexivity|apply small_room; vm_compute; reflexivity]].
    constructor; [split; [apply key_exact; lia|discriminate]|]. constructor; [split; [exact Logic.I|discriminate]|]. constructor. }
  destruct (tree_exists [la] bs 2%Z H) as (T & U & S).
  - repeat (constructor; [discriminate|]). constructor.
  - repeat constructor.
  - apply once_check. vm_compute. reflexivity.
  - apply small_items. vm_compute. reflexivity.
  - inversion H as [|? a ? bs1 Ha H1 E1 E2]; subst. inversion H1; subst.
    pose proof (uniq_of a la Ha Xa) as Ua. pose proof (count_of a la Ha) as Ca.
    change (kinds la) with 2 in Ua. change (length la) with 2 in Ca.
    assert (Ma : max_index a = PNull).
    { apply (max_of a la); [exact Ha|right; left; reflexivity|]. intros k [<-|[<-|[]]]; [discriminate|reflexivity]. }
    exists (tree_of [a] (u64 (Z.of_nat (length (concat [la])))) 2), la, {| nodes := []; icount := 0; ucount := 1 |}, {| nodes := [new_node a]; icount := 2; ucount := 1 |}.
    cbn [concat] in T. rewrite app_nil_r in T. split; [exact T|]. split; [apply U; repeat constructor|]. split; [split; reflexivity|]. split; [reflexivity|]. split; [exact S|].
    split. { unfold seg_split. cbn [nodes tree_of map length take_high ucount icount]. change (2 / 2)%Z with 1%Z.
      unfold load_at at 1. cbn [nth_error nblk new_node rbind]. rewrite Ma, Ua, Ca. change (equal PNull PNull) with true. cbn [one_if].
      change (u64 (Z.of_nat 2 - 1)) with 1%Z. change (1 <=? 1)%Z with true. reflexivity. }
    split; [reflexivity|]. split; [reflexivity|]. split; [|reflexivity].
    destruct T as (bs0 & Hn & Q). exists bs0. split; [exact Hn|]. exact Q.
Qed.
Print Assumptions C66_null_refuted.

(** A tree of one written block, as the theorem about written blocks asks for. *)
Example C66_saved_case : exists t n, tree_holds NoFloats t low_part /\ nodes t = [n] /\ nmod n = false /\ keys_counted t low_part /\ no_null low_part /\ 2 <= kinds low_part.
Proof.
  destruct (blocks_exist [low_part]) as (bs & H).
  { constructor; [|constructor]. split; [|split; [apply once_check; vm_compute; reflexivity|apply small_room; vm_compute; reflexivity]].
    repeat (constructor; [split; [apply key_exact; lia|discriminate]|]); constructor. }
  destruct (tree_exists [low_part] bs 2%Z H) as (T & U & S).
  - repeat (constructor; [discriminate|]). constructor.
  - repeat constructor.
  - apply once_check. vm_compute. reflexivity.
  - apply small_items. vm_compute. reflexivity.
  - inversion H as [|? a ? bs1 Ha H1 E1 E2]; subst. inversion H1; subst. cbn [concat] in T. rewrite app_nil_r in T.
    eexists. eexists. split; [apply reload_tree, T|]. split; [reflexivity|]. split; [reflexivity|]. split; [split; reflexivity|].
    split; [intros e I; repeat (destruct I as [<-|I]; [discriminate|]); destruct I|]. vm_compute. lia.
Qed.

(** Two neighbours, as balancing and joining ask for. *)
Example C66_case_two : exists t o lt lo, tree_holds NoFloats t lt /\ tree_holds NoFloats o lo /\ unshared t /\ unshared o /\
  keys_counted t lt /\ keys_counted o lo /\ no_null lo /\ lt <> [] /\ lo <> [] /\ kinds lt = 1 /\ kinds lo = 4 /\ below lt lo.
Proof.
  destruct C66_case as (o & To & Uo & Ko & No & _ & _). set (la := [(key 0, str "z")]).
  destruct (blocks_exist [la]) as (bs & H).
  { constructor; [|constructor]. split; [|split; [apply once_check; vm_compute; reflexivity|apply small_room; vm_compute; reflexivity]].
    repeat (constructor; [split; [apply key_exact; lia|discriminate]|]); constructor. }
  destruct (tree_exists [la] bs 1%Z H) as (T & U & S).
  - repeat (constructor; [discriminate|]). constructor.
  - repeat constructor.
  - apply once_check. vm_compute. reflexivity.
  - apply small_items. vm_compute. reflexivity.
  - eexists. exists o, la, (low_part ++ high_part). cbn [concat] in T. rewrite app_nil_r in T. split; [exact T|]. split; [exact To|].
    split; [apply U; repeat constructor|]. split; [exact Uo|]. split; [split; reflexivity|]. split; [exact Ko|]. split; [exact No|].
    split; [discriminate|]. split; [discriminate|]. split; [reflexivity|]. split; [reflexivity|]. apply below_check. vm_compute. reflexivity.
Qed.
