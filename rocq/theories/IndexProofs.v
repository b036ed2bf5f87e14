(** Proofs about indexes. *)
From Verif Require Import Bytes Outcome ByteOrd LValModel LValSpec LValProofs IndexModel IndexSpec.
From Coq Require Import Sorting.Permutation Sorting.Sorted Lia.
Local Open Scope nat_scope.

(** ** The three ordered sets *)
Lemma of_type_ordered t : basic t = true -> ordered (of_type t).
Proof.
  intros B. split.
  - intros a [x ->]. rewrite same_type_num by assumption. apply Z.ltb_irrefl.
  - intros a b c [x ->] [y ->] [z ->]. rewrite !same_type_num by assumption. rewrite !Z.ltb_lt. lia.
  - intros a b c [x ->] [y ->] [z ->]. rewrite !same_type_num by assumption. rewrite !Z.ltb_ge. lia.
  - intros a b [x ->] [y ->]. rewrite !same_type_num by assumption.
    assert (E : veqb (VNum t x) (VNum t y) = (x =? y)%Z).
    { unfold veqb, veq, compare_with. cbn [type_of]. destruct (lty_eqb_spec t t); [|congruence].
      rewrite eq_same_num by assumption. reflexivity. }
    rewrite E. destruct (Z.eqb_spec x y), (Z.ltb_spec x y), (Z.ltb_spec y x); cbn; lia.
Qed.

Lemma strings_ordered : ordered is_string.
Proof.
  assert (L : forall a b, vltb (VStr a) (VStr b) = bltb a b) by reflexivity.
  assert (Q : forall a b, veqb (VStr a) (VStr b) = beqb a b) by reflexivity.
  split.
  - intros a [x ->]. rewrite L. unfold bltb. rewrite bcmp_refl. reflexivity.
  - intros a b c [x ->] [y ->] [z ->]. rewrite !L. unfold bltb.
    destruct (bcmp x y) eqn:E1; try discriminate. destruct (bcmp y z) eqn:E2; try discriminate.
    rewrite (bcmp_trans _ _ _ E1 E2). reflexivity.
  - intros a b c [x ->] [y ->] [z ->]. rewrite !L. unfold bltb.
    destruct (bcmp x z) eqn:E; try reflexivity.
    destruct (bcmp x y) eqn:E1; intros H1; try discriminate H1;
      (destruct (bcmp y z) eqn:E2; intros H2; try discriminate H2).
    + apply bcmp_eq in E1, E2. subst. rewrite bcmp_refl in E. discriminate.
    + apply bcmp_eq in E1. subst. congruence.
    + apply bcmp_eq in E2. subst. congruence.
    + pose proof (bcmp_sym x y) as S1. rewrite E1 in S1. pose proof (bcmp_trans _ _ _ S1 E) as S2. congruence.
  - intros a b [x ->] [y ->]. rewrite Q, !L. unfold beqb, bltb. rewrite (bcmp_sym x y).
    destruct (bcmp x y); reflexivity.
Qed.

Lemma tame_comparable t1 z1 t2 z2 :
  basic t1 = true -> t1 <> TBool -> (z1 < 2 ^ (bits t1 - 1))%Z ->
  basic t2 = true -> t2 <> TBool -> (z2 < 2 ^ (bits t2 - 1))%Z -> comparable t1 z1 t2 z2.
Proof.
  intros B1 N1 H1 B2 N2 H2. unfold comparable, half.
  assert (P : forall a b, basic a = true -> basic b = true ->
    (2 ^ (bits b - 1) <= 2 ^ (Z.max (bits a) (bits b) - 1))%Z).
  { intros a b Ba Bb. apply Z.pow_le_mono_r; [reflexivity|lia]. }
  destruct (signed t1), (signed t2); try exact I.
  - split; [assumption|]. specialize (P t1 t2 B1 B2). lia.
  - split; [assumption|]. specialize (P t2 t1 B2 B1). lia.
Qed.

Lemma tame_cmp a b : tame a -> tame b ->
  vltb a b = (as_num a <? as_num b)%Z /\ veqb a b = (as_num a =? as_num b)%Z.
Proof.
  intros (t & x & -> & B & N & F & H) (s & y & -> & B' & N' & F' & H').
  destruct (compare_num t x s y B B' F F' (tame_comparable _ _ _ _ B N H B' N' H')) as (E & _ & L & _).
  split; assumption.
Qed.

Lemma tame_ordered : ordered tame.
Proof.
  split.
  - intros a A. rewrite (proj1 (tame_cmp _ _ A A)). apply Z.ltb_irrefl.
  - intros a b c A B C. rewrite (proj1 (tame_cmp _ _ A B)), (proj1 (tame_cmp _ _ B C)), (proj1 (tame_cmp _ _ A C)).
    rewrite !Z.ltb_lt. lia.
  - intros a b c A B C. rewrite (proj1 (tame_cmp _ _ A B)), (proj1 (tame_cmp _ _ B C)), (proj1 (tame_cmp _ _ A C)).
    rewrite !Z.ltb_ge. lia.
  - intros a b A B. rewrite (proj1 (tame_cmp _ _ A B)), (proj2 (tame_cmp _ _ A B)), (proj1 (tame_cmp _ _ B A)).
    destruct (Z.eqb_spec (as_num a) (as_num b)), (Z.ltb_spec (as_num a) (as_num b)),
      (Z.ltb_spec (as_num b) (as_num a)); cbn; lia.
Qed.

(** ** Lists *)
Lemma filter_all {A} (f : A -> bool) l : (forall x, In x l -> f x = true) -> filter f l = l.
Proof.
  induction l as [|a l IH]; intros H; [reflexivity|]. cbn. rewrite (H a (or_introl eq_refl)).
  f_equal. apply IH. intros x X. apply H. right. assumption.
Qed.
Lemma filter_none {A} (f : A -> bool) l : (forall x, In x l -> f x = false) -> filter f l = [].
Proof.
  induction l as [|a l IH]; intros H; [reflexivity|]. cbn. rewrite (H a (or_introl eq_refl)).
  apply IH. intros x X. apply H. right. assumption.
Qed.
Lemma filter_perm {A} (f : A -> bool) l l' : Permutation l l' -> Permutation (filter f l) (filter f l').
Proof.
  induction 1; cbn; try (destruct (f x)); try (destruct (f y)); eauto using Permutation.
Qed.

Lemma walk_limited limit count es : walk limit count es =
  if (limit =? -1)%Z then es else firstn (Z.to_nat (limit - Z.of_nat count)) es.
Proof.
  revert count. induction es as [|e es IH]; intros count; cbn [walk].
  - rewrite firstn_nil. destruct (limit =? -1)%Z; reflexivity.
  - unfold limit_check. rewrite IH. destruct (Z.eqb_spec limit (-1)); [reflexivity|]. cbn [orb].
    destruct (Z.ltb_spec (Z.of_nat count) limit).
    + replace (Z.to_nat (limit - Z.of_nat count)) with (S (Z.to_nat (limit - Z.of_nat (S count)))) by lia. reflexivity.
    + replace (Z.to_nat (limit - Z.of_nat count)) with 0 by lia. reflexivity.
Qed.

Lemma walk_ranges_flat limit count rs : walk_ranges limit count rs = walk limit count (concat rs).
Proof.
  revert count. induction rs as [|r rs IH]; intros count; [reflexivity|]. cbn [walk_ranges concat].
  rewrite IH, !walk_limited. destruct (Z.eqb_spec limit (-1)) as [|N]; [reflexivity|].
  rewrite firstn_app, firstn_length. f_equal.
  destruct (Nat.le_gt_cases (Z.to_nat (limit - Z.of_nat count)) (length r)).
  - rewrite Nat.min_l by assumption. replace (Z.to_nat (limit - Z.of_nat count) - length r) with 0 by lia.
    replace (Z.to_nat (limit - Z.of_nat (count + Z.to_nat (limit - Z.of_nat count)))) with 0 by lia. reflexivity.
  - rewrite Nat.min_r by lia. f_equal. lia.
Qed.

Lemma search_table_same c v limit l : search_table c v limit l = search c v limit l.
Proof. unfold search_table, search. rewrite walk_ranges_flat, flat_map_concat_map. reflexivity. Qed.

Section Ordered.
Variable P : lval -> Prop.
Hypothesis O : ordered P.

Definition keys_in (l : list entry) : Prop := forall e, In e l -> P (fst e).
Definition not_after (a b : entry) : Prop := vltb (fst b) (fst a) = false.
Definition sorted (l : list entry) : Prop := StronglySorted not_after l.

Lemma asym a b : P a -> P b -> vltb a b = true -> vltb b a = false.
Proof.
  intros A B L. destruct (vltb b a) eqn:E; [|reflexivity].
  pose proof (ord_trans P O a b a A B A L E) as X. rewrite (ord_irrefl P O a A) in X. discriminate.
Qed.

(** A sorted index falls into the entries below, equal to and above a value, which is how the ranges cut it. *)
Lemma lower_filter k l : P k -> keys_in l -> sorted l ->
  firstn (lower_bound k l) l = filter (fun e => vltb (fst e) k) l /\
  skipn (lower_bound k l) l = filter (fun e => negb (vltb (fst e) k)) l.
Proof.
  intros Pk. induction l as [|e l IH]; intros K S; [split; reflexivity|].
  inversion S as [|? ? S' F]; subst. assert (Pe : P (fst e)) by (apply K; left; reflexivity).
  assert (K' : keys_in l) by (intros x X; apply K; right; assumption).
  cbn [lower_bound filter]. destruct (vltb (fst e) k) eqn:E.
  - destruct (IH K' S') as [A B]. cbn [firstn skipn negb]. split; [f_equal; assumption|assumption].
  - cbn [firstn skipn negb].
    assert (N : forall x, In x l -> vltb (fst x) k = false).
    { intros x X. rewrite Forall_forall in F. specialize (F x X). unfold not_after in F.
      exact (ord_total P O _ _ _ (K' x X) Pe Pk F E). }
    split.
    + symmetry. apply filter_none. assumption.
    + f_equal. symmetry. apply filter_all. intros x X. rewrite (N x X). reflexivity.
Qed.

Lemma upper_filter k l : P k -> keys_in l -> sorted l ->
  firstn (upper_bound k l) l = filter (fun e => negb (vltb k (fst e))) l /\
  skipn (upper_bound k l) l = filter (fun e => vltb k (fst e)) l.
Proof.
  intros Pk. induction l as [|e l IH]; intros K S; [split; reflexivity|].
  inversion S as [|? ? S' F]; subst. assert (Pe : P (fst e)) by (apply K; left; reflexivity).
  assert (K' : keys_in l) by (intros x X; apply K; right; assumption).
  cbn [upper_bound filter]. destruct (vltb k (fst e)) eqn:E.
  - cbn [firstn skipn negb].
    assert (N : forall x, In x l -> vltb k (fst x) = true).
    { intros x X. rewrite Forall_forall in F. specialize (F x X). unfold not_after in F.
      destruct (vltb k (fst x)) eqn:E2; [reflexivity|].
      rewrite <- E. symmetry. exact (ord_total P O _ _ _ Pk (K' x X) Pe E2 F). }
    split.
    + symmetry. apply filter_none. intros x X. rewrite (N x X). reflexivity.
    + f_equal. symmetry. apply filter_all. assumption.
  - destruct (IH K' S') as [A B]. cbn [firstn skipn negb]. split; [f_equal; assumption|assumption].
Qed.

Lemma filter_filter {A} (f g : A -> bool) l : filter f (filter g l) = filter (fun x => g x && f x) l.
Proof.
  induction l as [|a l IH]; [reflexivity|]. cbn. destruct (g a); cbn; [|assumption].
  destruct (f a); rewrite IH; reflexivity.
Qed.

Lemma lower_range_filter k l : P k -> keys_in l -> sorted l ->
  slice (lower_range k l) l = filter (fun e => vltb (fst e) k) l.
Proof.
  intros Pk K S. unfold slice, lower_range. cbn [fst snd]. rewrite Nat.sub_0_r. cbn [skipn].
  apply (lower_filter k l Pk K S).
Qed.

Lemma upper_range_filter k l : P k -> keys_in l -> sorted l ->
  slice (upper_range k l) l = filter (fun e => vltb k (fst e)) l.
Proof.
  intros Pk K S. unfold slice, upper_range. cbn [fst snd].
  rewrite firstn_all2 by (rewrite skipn_length; lia). apply (upper_filter k l Pk K S).
Qed.

Lemma three_parts k l : P k -> keys_in l -> sorted l ->
  l = filter (fun e => vltb (fst e) k) l ++ filter (fun e => veqb (fst e) k) l ++ filter (fun e => vltb k (fst e)) l.
Proof.
  intros Pk K S. destruct (lower_filter k l Pk K S) as [A B].
  rewrite <- (firstn_skipn (lower_bound k l) l) at 1. rewrite A. f_equal. rewrite B.
  set (r := filter (fun e => negb (vltb (fst e) k)) l).
  assert (Kr : keys_in r) by (intros x X; apply filter_In in X; apply K, X).
  assert (Sr : sorted r).
  { unfold r. rewrite <- B. clear -S. revert l S. generalize (lower_bound k). intros f l. generalize (f l). clear f.
    intros n. revert l. induction n; intros l S; [assumption|]. destruct l; [assumption|]. cbn. apply IHn.
    inversion S; assumption. }
  destruct (upper_filter k r Pk Kr Sr) as [C D].
  transitivity (firstn (upper_bound k r) r ++ skipn (upper_bound k r) r); [symmetry; apply firstn_skipn|].
  rewrite C, D. unfold r. rewrite !filter_filter. f_equal.
  - apply filter_ext_in. intros e E. rewrite (ord_eq P O _ _ (K e E) Pk). reflexivity.
  - apply filter_ext_in. intros e E. destruct (vltb k (fst e)) eqn:L; [|rewrite Bool.andb_false_r; reflexivity].
    rewrite (asym _ _ Pk (K e E) L). reflexivity.
Qed.

Lemma find_range_filter k l : P k -> keys_in l -> sorted l ->
  slice (find_range k l) l = filter (fun e => veqb (fst e) k) l.
Proof.
  intros Pk K S. unfold slice, find_range. cbn [fst snd]. rewrite <- skipn_firstn_comm.
  rewrite (proj1 (upper_filter k l Pk K S)).
  assert (E : filter (fun e => negb (vltb k (fst e))) l =
    filter (fun e => vltb (fst e) k) l ++ filter (fun e => veqb (fst e) k) l).
  { rewrite (three_parts k l Pk K S) at 1. rewrite !filter_app.
    rewrite (filter_all _ (filter (fun e => vltb (fst e) k) l)).
    2:{ intros x X. apply filter_In in X. destruct X as [I X]. rewrite (asym _ _ (K x I) Pk X). reflexivity. }
    rewrite (filter_all _ (filter (fun e => veqb (fst e) k) l)).
    2:{ intros x X. apply filter_In in X. destruct X as [I X]. rewrite (ord_eq P O _ _ (K x I) Pk) in X.
        apply andb_prop in X. apply X. }
    rewrite (filter_none _ (filter (fun e => vltb k (fst e)) l)).
    2:{ intros x X. apply filter_In in X. destruct X as [I X]. rewrite X. reflexivity. }
    rewrite app_nil_r. reflexivity. }
  rewrite E. rewrite <- (proj1 (lower_filter k l Pk K S)) at 1.
  assert (L : lower_bound k l = length (firstn (lower_bound k l) l)).
  { rewrite firstn_length. assert (lower_bound k l <= length l); [|lia].
    clear. induction l as [|e l IH]; cbn; [lia|]. destruct (vltb (fst e) k); lia. }
  rewrite L at 1. rewrite skipn_app, skipn_all, Nat.sub_diag. reflexivity.
Qed.

Lemma search_filter c v limit l : P v -> keys_in l -> sorted l ->
  search c v limit l = limited limit (filter (fun e => holds_for c v (fst e)) l).
Proof.
  intros Pv K S. unfold search, limited. rewrite walk_limited. rewrite Z.sub_0_r.
  assert (E : flat_map (fun r => slice r l) (search_ranges c v l) = filter (fun e => holds_for c v (fst e)) l);
    [|rewrite E; reflexivity].
  pose proof (three_parts v l Pv K S) as T.
  set (A := filter (fun e => vltb (fst e) v) l) in *. set (B := filter (fun e => veqb (fst e) v) l) in *.
  set (C := filter (fun e => vltb v (fst e)) l) in *.
  assert (InA : forall e, In e A -> vltb (fst e) v = true /\ vltb v (fst e) = false /\ veqb (fst e) v = false).
  { intros e X. unfold A in X. apply filter_In in X. destruct X as [I X].
    split; [assumption|]. split; [apply asym; auto|]. rewrite (ord_eq P O _ _ (K e I) Pv), X. reflexivity. }
  assert (InB : forall e, In e B -> vltb (fst e) v = false /\ vltb v (fst e) = false /\ veqb (fst e) v = true).
  { intros e X. unfold B in X. apply filter_In in X. destruct X as [I X]. split; [|split; [|assumption]];
      rewrite (ord_eq P O _ _ (K e I) Pv) in X; apply andb_prop in X; destruct X as [X1 X2];
      apply Bool.negb_true_iff in X1, X2; assumption. }
  assert (InC : forall e, In e C -> vltb (fst e) v = false /\ vltb v (fst e) = true /\ veqb (fst e) v = false).
  { intros e X. unfold C in X. apply filter_In in X. destruct X as [I X].
    split; [apply asym; auto|]. split; [assumption|].
    rewrite (ord_eq P O _ _ (K e I) Pv), X. rewrite Bool.andb_false_r. reflexivity. }
  assert (FA : slice (lower_range v l) l = A) by (apply lower_range_filter; assumption).
  assert (FB : slice (find_range v l) l = B) by (apply find_range_filter; assumption).
  assert (FC : slice (upper_range v l) l = C) by (apply upper_range_filter; assumption).
  transitivity (filter (fun e => holds_for c v (fst e)) (A ++ B ++ C)); [|rewrite <- T; reflexivity].
  rewrite !filter_app.
  assert (G : forall (f : entry -> bool) X b, (forall e, In e X -> f e = b) -> filter f X = if b then X else []).
  { intros f X [|] H; [apply filter_all|apply filter_none]; assumption. }
  destruct c; cbn [search_ranges flat_map holds_for]; rewrite ?FA, ?FB, ?FC, ?app_nil_r;
    unfold vneb, vgtb, vgeb, vleb, vgtb.
  - rewrite (G _ A false), (G _ B true), (G _ C false); [cbn [app]; rewrite ?app_nil_r; reflexivity| | |].
    + intros e X. rewrite (proj2 (proj2 (InC e X))). reflexivity.
    + intros e X. rewrite (proj2 (proj2 (InB e X))). reflexivity.
    + intros e X. rewrite (proj2 (proj2 (InA e X))). reflexivity.
  - rewrite (G _ A true), (G _ B false), (G _ C true); [cbn [app]; rewrite ?app_nil_r; reflexivity| | |].
    + intros e X. rewrite (proj2 (proj2 (InC e X))). reflexivity.
    + intros e X. rewrite (proj2 (proj2 (InB e X))). reflexivity.
    + intros e X. rewrite (proj2 (proj2 (InA e X))). reflexivity.
  - rewrite (G _ A false), (G _ B false), (G _ C true); [cbn [app]; rewrite ?app_nil_r; reflexivity| | |].
    + intros e X. rewrite (proj1 (proj2 (InC e X))). reflexivity.
    + intros e X. rewrite (proj1 (proj2 (InB e X))). reflexivity.
    + intros e X. rewrite (proj1 (proj2 (InA e X))). reflexivity.
  - rewrite (G _ A true), (G _ B false), (G _ C false); [cbn [app]; rewrite ?app_nil_r; reflexivity| | |].
    + intros e X. rewrite (proj1 (InC e X)). reflexivity.
    + intros e X. rewrite (proj1 (InB e X)). reflexivity.
    + intros e X. rewrite (proj1 (InA e X)). reflexivity.
  - rewrite (G _ A false), (G _ B true), (G _ C true); [cbn [app]; rewrite ?app_nil_r; reflexivity| | |].
    + intros e X. rewrite (proj1 (InC e X)). reflexivity.
    + intros e X. rewrite (proj1 (InB e X)). reflexivity.
    + intros e X. rewrite (proj1 (InA e X)). reflexivity.
  - rewrite (G _ A true), (G _ B true), (G _ C false); [cbn [app]; rewrite ?app_nil_r; reflexivity| | |].
    + intros e X. rewrite (proj1 (proj2 (InC e X))). reflexivity.
    + intros e X. rewrite (proj1 (proj2 (InB e X))). reflexivity.
    + intros e X. rewrite (proj1 (proj2 (InA e X))). reflexivity.
Qed.

(** ** Inserting and removing *)
Lemma insert_perm k v l : Permutation (insert_entry k v l) ((k, v) :: l).
Proof.
  induction l as [|e l IH]; [reflexivity|]. cbn [insert_entry]. destruct (vltb k (fst e)); [reflexivity|].
  rewrite IH. apply perm_swap.
Qed.

Lemma insert_keys k v l : P k -> keys_in l -> keys_in (insert_entry k v l).
Proof.
  intros Pk K e E. apply (Permutation_in _ (insert_perm k v l)) in E. destruct E as [<-|E]; [assumption|apply K, E].
Qed.

Lemma insert_sorted k v l : P k -> keys_in l -> sorted l -> sorted (insert_entry k v l).
Proof.
  intros Pk. induction l as [|e l IH]; intros K S.
  - constructor; constructor.
  - inversion S as [|? ? S' F]; subst. assert (Pe : P (fst e)) by (apply K; left; reflexivity).
    assert (K' : keys_in l) by (intros x X; apply K; right; assumption).
    cbn [insert_entry]. destruct (vltb k (fst e)) eqn:E.
    + constructor; [assumption|]. apply Forall_forall. intros x X. unfold not_after. cbn [fst].
      destruct X as [<-|X]; [apply asym; assumption|].
      rewrite Forall_forall in F. specialize (F x X). unfold not_after in F.
      exact (ord_total P O _ _ _ (K' x X) Pe Pk F (asym _ _ Pk Pe E)).
    + constructor; [apply IH; assumption|]. apply Forall_forall. intros x X.
      apply (Permutation_in _ (insert_perm k v l)) in X. destruct X as [<-|X]; [exact E|].
      rewrite Forall_forall in F. apply F, X.
Qed.

Lemma eqv_refl a : P a -> veqb a a = true.
Proof. intros A. rewrite (ord_eq P O a a A A), (ord_irrefl P O a A). reflexivity. Qed.

Lemma eqv_sym a b : P a -> P b -> veqb a b = veqb b a.
Proof. intros A B. rewrite (ord_eq P O a b A B), (ord_eq P O b a B A). apply Bool.andb_comm. Qed.

Lemma eqv_trans a b c : P a -> P b -> P c -> veqb a b = true -> veqb b c = true -> veqb a c = true.
Proof.
  intros A B C. rewrite (ord_eq P O a b A B), (ord_eq P O b c B C), (ord_eq P O a c A C).
  rewrite !Bool.andb_true_iff, !Bool.negb_true_iff. intros [H1 H2] [H3 H4]. split.
  - exact (ord_total P O _ _ _ A B C H1 H3).
  - exact (ord_total P O _ _ _ C B A H4 H2).
Qed.

Lemma eqv_same a b v : P a -> P b -> P v -> veqb a b = true -> veqb a v = veqb b v.
Proof.
  intros A B V E. destruct (veqb b v) eqn:F.
  - exact (eqv_trans _ _ _ A B V E F).
  - destruct (veqb a v) eqn:G; [|reflexivity]. rewrite <- F. symmetry.
    apply (eqv_trans b a v B A V); [|assumption]. rewrite eqv_sym by assumption. assumption.
Qed.

(** The entries with a given key, in order. *)
Definition class (v : lval) (l : list entry) : list entry := filter (fun e => veqb (fst e) v) l.

Lemma insert_class v k id l : P v -> P k -> keys_in l -> sorted l ->
  class v (insert_entry k id l) = class v l ++ (if veqb k v then [(k, id)] else []).
Proof.
  intros Pv Pk. induction l as [|e l IH]; intros K S; [reflexivity|].
  inversion S as [|? ? S' F]; subst. assert (Pe : P (fst e)) by (apply K; left; reflexivity).
  assert (K' : keys_in l) by (intros x X; apply K; right; assumption).
  cbn [insert_entry]. destruct (vltb k (fst e)) eqn:E.
  - unfold class. cbn [filter fst]. destruct (veqb k v) eqn:Q; [|rewrite app_nil_r; reflexivity].
    assert (N : forall x, In x (e :: l) -> veqb (fst x) v = false).
    { intros x X. destruct (veqb (fst x) v) eqn:Y; [|reflexivity]. exfalso.
      assert (EQ : veqb k (fst x) = true).
      { apply (eqv_trans k v (fst x)); auto. rewrite eqv_sym; auto. }
      rewrite (ord_eq P O _ _ Pk (K x X)) in EQ. apply andb_prop in EQ. destruct EQ as [EQ _].
      apply Bool.negb_true_iff in EQ.
      assert (G : vltb (fst x) (fst e) = false).
      { destruct X as [<-|X]; [apply (ord_irrefl P O); assumption|]. rewrite Forall_forall in F. apply (F x X). }
      pose proof (ord_total P O _ _ _ Pk (K x X) Pe EQ G). congruence. }
    change (if veqb (fst e) v then e :: filter (fun x => veqb (fst x) v) l else filter (fun x => veqb (fst x) v) l)
      with (filter (fun x => veqb (fst x) v) (e :: l)).
    rewrite (filter_none _ (e :: l)) by assumption. reflexivity.
  - unfold class in *. cbn [filter]. rewrite (IH K' S'). destruct (veqb (fst e) v); reflexivity.
Qed.

Lemma remove_some k l e r : P k -> keys_in l -> sorted l -> class k l = e :: r ->
  exists A C, l = A ++ (e :: r) ++ C /\ remove_key k l = Ok (A ++ r ++ C) /\
    (forall v, P v -> class v (A ++ r ++ C) = if veqb k v then r else class v l).
Proof.
  intros Pk K S E. pose proof (three_parts k l Pk K S) as T. fold (class k l) in T. rewrite E in T.
  set (A := filter (fun e => vltb (fst e) k) l) in *. set (C := filter (fun e => vltb k (fst e)) l) in *.
  assert (LA : lower_bound k l = length A).
  { unfold A. rewrite <- (proj1 (lower_filter k l Pk K S)). rewrite firstn_length.
    assert (lower_bound k l <= length l); [|lia].
    clear. induction l as [|x l IH]; cbn; [lia|]. destruct (vltb (fst x) k); lia. }
  assert (Ie : In e (class k l)) by (rewrite E; left; reflexivity).
  unfold class in Ie. apply filter_In in Ie. destruct Ie as [Il Ie].
  assert (Pe : P (fst e)) by (apply K, Il).
  exists A, C. split; [assumption|]. split.
  - unfold remove_key, find_pos. rewrite LA. rewrite T at 1.
    rewrite nth_error_app2 by lia. rewrite Nat.sub_diag. cbn [nth_error app].
    rewrite (ord_eq P O _ _ Pe Pk) in Ie. apply andb_prop in Ie. destruct Ie as [_ Ie].
    apply Bool.negb_true_iff in Ie. rewrite Ie. f_equal. rewrite T.
    f_equal.
    + rewrite firstn_app, Nat.sub_diag, firstn_all. cbn [firstn]. apply app_nil_r.
    + rewrite skipn_app. rewrite skipn_all2 by lia. replace (Datatypes.S (length A) - length A) with 1 by lia. reflexivity.
  - intros v Pv. assert (Kin : forall x, In x (A ++ (e :: r) ++ C) -> P (fst x)) by (rewrite <- T; exact K).
    assert (Kr : forall x, In x r -> P (fst x) /\ veqb (fst x) k = true).
    { intros x X. assert (I : In x (class k l)) by (rewrite E; right; assumption).
      unfold class in I. apply filter_In in I. destruct I. split; [apply K|]; assumption. }
    destruct (veqb k v) eqn:Q.
    + assert (CE : class v l = class k l).
      { unfold class. apply filter_ext_in. intros x X. rewrite (eqv_sym (fst x) v), (eqv_sym (fst x) k) by auto.
        symmetry. apply eqv_same; auto. }
      rewrite E in CE. unfold class in *. rewrite T in CE. rewrite !filter_app in *.
      cbn [filter] in CE.
      assert (Fe : veqb (fst e) v = true) by (apply (eqv_trans (fst e) k v); auto).
      rewrite Fe in CE.
      assert (Fr : filter (fun x => veqb (fst x) v) r = r).
      { apply filter_all. intros x X. destruct (Kr x X). apply (eqv_trans (fst x) k v); auto. }
      rewrite Fr in *.
      assert (L : length (filter (fun x => veqb (fst x) v) A) = 0 /\ length (filter (fun x => veqb (fst x) v) C) = 0).
      { apply (f_equal (@length entry)) in CE. rewrite !app_length in CE. cbn [length] in CE. lia. }
      destruct L as [L1 L2]. apply length_zero_iff_nil in L1, L2. rewrite L1, L2, app_nil_r. reflexivity.
    + unfold class. rewrite T. rewrite !filter_app. cbn [filter].
      assert (Fe : veqb (fst e) v = false).
      { destruct (veqb (fst e) v) eqn:Y; [|reflexivity]. rewrite <- Q. symmetry.
        apply (eqv_trans k (fst e) v); auto. rewrite eqv_sym; auto. }
      rewrite Fe. reflexivity.
Qed.

Lemma sorted_remove A e r C : sorted (A ++ (e :: r) ++ C) -> sorted (A ++ r ++ C).
Proof.
  induction A as [|a A IH]; cbn [app]; intros S.
  - inversion S; assumption.
  - inversion S as [|? ? S' F]; subst. constructor; [apply IH; assumption|].
    apply Forall_forall. intros x X. rewrite Forall_forall in F. apply F.
    apply in_app_or in X. apply in_or_app. destruct X as [X|X]; [left; assumption|right; right; assumption].
Qed.

Lemma keys_remove A e r C : keys_in (A ++ (e :: r) ++ C) -> keys_in (A ++ r ++ C).
Proof.
  intros K x X. apply K. apply in_app_or in X. apply in_or_app.
  destruct X as [X|X]; [left; assumption|right; right; assumption].
Qed.

(** ** Histories *)
Lemma NoDup_app {A} (a b : list A) : NoDup a -> NoDup b -> (forall x, In x a -> ~ In x b) -> NoDup (a ++ b).
Proof.
  induction a as [|x a IH]; intros NA NB D; [assumption|]. inversion NA; subst. cbn [app]. constructor.
  - intros I. apply in_app_or in I. destruct I as [I|I]; [contradiction|]. exact (D x (or_introl eq_refl) I).
  - apply IH; [assumption|assumption|]. intros y Y. apply D. right. assumption.
Qed.

Definition rows_ok (rs : rows) : Prop := NoDup (map fst rs) /\ forall r, In r rs -> P (snd r).

Lemma step_ok rs c : rows_ok rs -> legal P rs c -> rows_ok (step rs c).
Proof.
  intros [N K] L. destruct c as [id k|id k]; cbn [step legal] in *.
  - destruct L as [Pk F]. split.
    + rewrite map_app. apply NoDup_app; [assumption|repeat constructor; intros []|].
      intros x X [<-|[]]. contradiction.
    + intros r R. apply in_app_or in R. destruct R as [R|[<-|[]]]; [apply K, R|assumption].
  - split.
    + clear -N. induction rs as [|r rs IH]; [constructor|]. cbn [map] in N. inversion N; subst. cbn [filter].
      destruct (negb (N.eqb id (fst r))); [|apply IH; assumption]. cbn [map]. constructor; [|apply IH; assumption].
      intros X. apply in_map_iff in X. destruct X as (y & E & Y). apply filter_In in Y. destruct Y as [Y _].
      apply H1. rewrite <- E. apply in_map, Y.
    + intros r R. apply filter_In in R. apply K, R.
Qed.

Lemma delete_split rs id k : rows_ok rs -> In (id, k) rs ->
  exists X Y, rs = X ++ (id, k) :: Y /\ step rs (Delete id k) = X ++ Y.
Proof.
  intros [N _] I. apply in_split in I. destruct I as (X & Y & ->). exists X, Y. split; [reflexivity|].
  rewrite map_app in N. cbn [map fst] in N. apply NoDup_remove_2 in N.
  cbn [step]. rewrite filter_app. cbn [filter fst]. rewrite N.eqb_refl. cbn [negb].
  assert (F : forall Z : list (BinNums.N * lval), (forall z, In z Z -> ~ fst z = id) -> filter (fun r => negb (N.eqb id (fst r))) Z = Z).
  { intros Z H. apply filter_all. intros z I. specialize (H z I).
    destruct (N.eqb_spec id (fst z)); [congruence|reflexivity]. }
  rewrite !F; [reflexivity| |].
  - intros z I E. apply N. apply in_or_app. right. rewrite <- E. apply in_map, I.
  - intros z I E. apply N. apply in_or_app. left. rewrite <- E. apply in_map, I.
Qed.

Definition row_class (v : lval) (rs : rows) : list entry := class v (map row_entry rs).

Lemma row_class_filter v rs : row_class v rs = map row_entry (filter (fun r => veqb (snd r) v) rs).
Proof.
  unfold row_class, class. induction rs as [|r rs IH]; [reflexivity|]. cbn [map filter row_entry fst snd].
  destruct (veqb (snd r) v); cbn [map]; rewrite IH; reflexivity.
Qed.

Lemma row_class_app v a b : row_class v (a ++ b) = row_class v a ++ row_class v b.
Proof. unfold row_class, class. rewrite map_app, filter_app. reflexivity. Qed.

(** What always holds: every key has as many entries as rows. *)
Definition counts (l : list entry) (rs : rows) : Prop :=
  keys_in l /\ sorted l /\ forall v, P v -> length (class v l) = length (row_class v rs).

Lemma counts_step l rs c : rows_ok rs -> counts l rs -> legal P rs c ->
  exists l', apply l c = Ok l' /\ counts l' (step rs c).
Proof.
  intros R (K & S & E) L. destruct c as [id k|id k]; cbn [apply legal] in *.
  - destruct L as [Pk F]. exists (insert_entry k id l). split; [reflexivity|].
    split; [apply insert_keys; assumption|]. split; [apply insert_sorted; assumption|].
    intros v Pv. rewrite insert_class by assumption. cbn [step]. rewrite row_class_app, !app_length, (E v Pv).
    reflexivity.
  - assert (Pk : P k) by (apply (proj2 R (id, k)), L).
    destruct (delete_split rs id k R L) as (X & Y & RS & ST).
    assert (NE : length (row_class k rs) <> 0).
    { rewrite RS, row_class_app, app_length. unfold row_class at 2, class. cbn [map row_entry fst snd filter].
      rewrite (eqv_refl k Pk). cbn [length]. lia. }
    destruct (class k l) as [|e r] eqn:C.
    { rewrite <- (E k Pk), C in NE. exfalso. apply NE. reflexivity. }
    destruct (remove_some k l e r Pk K S C) as (A & B & T & RM & CL).
    exists (A ++ r ++ B). split; [assumption|]. split; [apply (keys_remove A e r B); rewrite <- T; assumption|].
    split; [apply (sorted_remove A e r B); rewrite <- T; assumption|].
    intros v Pv. rewrite (CL v Pv), ST.
    assert (LEN : length (row_class v rs) = length (row_class v (X ++ Y)) + (if veqb k v then 1 else 0)).
    { rewrite RS, !row_class_app, !app_length. unfold row_class at 2, class. cbn [map row_entry fst snd filter].
      fold (class v (map row_entry Y)). fold (row_class v Y). destruct (veqb k v); cbn [length]; lia. }
    destruct (veqb k v) eqn:Q.
    + assert (CE : class v l = class k l).
      { unfold class. apply filter_ext_in. intros x Hx. rewrite (eqv_sym (fst x) v), (eqv_sym (fst x) k) by auto.
        symmetry. apply eqv_same; auto. }
      pose proof (E v Pv) as EV. rewrite CE, C in EV. cbn [length] in EV. lia.
    + rewrite (E v Pv). lia.
Qed.

Lemma counts_all cs : legal_all P (fun _ _ => True) [] cs ->
  exists l, apply_all cs = Ok l /\ counts l (live cs).
Proof.
  unfold apply_all, live.
  assert (G : forall cs l rs, rows_ok rs -> counts l rs -> legal_all P (fun _ _ => True) rs cs ->
    exists l', fold_left (fun acc c => do l <- acc; apply l c) cs (Ok l) = Ok l' /\ counts l' (fold_left step cs rs)).
  { clear cs. induction cs as [|c cs IH]; intros l rs R C L; [exists l; split; [reflexivity|assumption]|].
    destruct L as (L1 & _ & L2). destruct (counts_step l rs c R C L1) as (l' & A & C').
    cbn [fold_left rbind]. rewrite A. apply IH; [apply step_ok; assumption|assumption|assumption]. }
  intros L. apply (G cs [] []); [split; [constructor|intros r []]| |assumption].
  split; [intros e []|]. split; [constructor|]. reflexivity.
Qed.

(** With deletions of the oldest row of a key: the index holds exactly the live rows. *)
Definition exact (l : list entry) (rs : rows) : Prop :=
  keys_in l /\ sorted l /\ Permutation l (map row_entry rs) /\ forall v, P v -> class v l = row_class v rs.

Lemma exact_step l rs c : rows_ok rs -> exact l rs -> legal P rs c -> oldest rs c ->
  exists l', apply l c = Ok l' /\ exact l' (step rs c).
Proof.
  intros R (K & S & PM & E) L OL. destruct c as [id k|id k]; cbn [apply legal] in *.
  - destruct L as [Pk F]. exists (insert_entry k id l). split; [reflexivity|].
    split; [apply insert_keys; assumption|]. split; [apply insert_sorted; assumption|]. split.
    + rewrite insert_perm. cbn [step]. rewrite map_app. cbn [map row_entry fst snd].
      rewrite PM. apply Permutation_cons_append.
    + intros v Pv. rewrite insert_class by assumption. cbn [step]. rewrite row_class_app, (E v Pv).
      reflexivity.
  - assert (Pk : P k) by (apply (proj2 R (id, k)), L).
    destruct (delete_split rs id k R L) as (X & Y & RS & ST).
    destruct OL as (rest & OL).
    assert (C : class k l = (k, id) :: map row_entry rest).
    { rewrite (E k Pk), row_class_filter, OL. reflexivity. }
    destruct (remove_some k l _ _ Pk K S C) as (A & B & T & RM & CL).
    exists (A ++ map row_entry rest ++ B). split; [assumption|].
    split; [eapply keys_remove; rewrite <- T; exact K|].
    split; [eapply sorted_remove; rewrite <- T; exact S|].
    split.
    + rewrite ST. rewrite T, RS, map_app in PM. cbn [map row_entry fst snd app] in PM.
      rewrite map_app. apply (Permutation_cons_inv (a := (k, id))).
      rewrite Permutation_middle. rewrite PM. symmetry. apply Permutation_middle.
    + intros v Pv. rewrite (CL v Pv).
      assert (XC : filter (fun r => veqb (snd r) k) X = []).
      { rewrite RS, filter_app in OL. cbn [filter snd] in OL. rewrite (eqv_refl k Pk) in OL.
        destruct (filter (fun r => veqb (snd r) k) X) as [|x xs] eqn:FX; [reflexivity|].
        cbn [app] in OL. injection OL as Ex _. exfalso.
        assert (Ix : In x X) by (assert (I : In x (x :: xs)) by (left; reflexivity); rewrite <- FX in I; apply filter_In in I; apply I).
        destruct R as [N _]. rewrite RS, map_app in N. cbn [map fst] in N. apply NoDup_remove_2 in N. apply N.
        apply in_or_app. left. change id with (fst (id, k)). rewrite <- Ex. apply in_map, Ix. }
      assert (YC : filter (fun r => veqb (snd r) k) Y = rest).
      { rewrite RS, filter_app, XC in OL. cbn [filter snd app] in OL. rewrite (eqv_refl k Pk) in OL. injection OL as OL. assumption. }
      rewrite ST. destruct (veqb k v) eqn:Q.
      * rewrite row_class_filter, filter_app.
        assert (CE : forall Z : list (N * lval), (forall z, In z Z -> P (snd z)) ->
          filter (fun r => veqb (snd r) v) Z = filter (fun r => veqb (snd r) k) Z).
        { intros Z HZ. apply filter_ext_in. intros x Hx. rewrite (eqv_sym (snd x) v), (eqv_sym (snd x) k) by auto.
          symmetry. apply eqv_same; auto. }
        rewrite (CE X), (CE Y), XC, YC; [reflexivity| |].
        -- intros z Z. apply (proj2 R). rewrite RS. apply in_or_app. right. right. assumption.
        -- intros z Z. apply (proj2 R). rewrite RS. apply in_or_app. left. assumption.
      * rewrite (E v Pv), RS. rewrite !row_class_filter, !filter_app. cbn [filter snd]. rewrite Q. reflexivity.
Qed.

Lemma exact_all cs : legal_all P oldest [] cs ->
  exists l, apply_all cs = Ok l /\ exact l (live cs).
Proof.
  unfold apply_all, live.
  assert (G : forall cs l rs, rows_ok rs -> exact l rs -> legal_all P oldest rs cs ->
    exists l', fold_left (fun acc c => do l <- acc; apply l c) cs (Ok l) = Ok l' /\ exact l' (fold_left step cs rs)).
  { clear cs. induction cs as [|c cs IH]; intros l rs R C L; [exists l; split; [reflexivity|assumption]|].
    destruct L as (L1 & OL & L2). destruct (exact_step l rs c R C L1 OL) as (l' & A & C').
    cbn [fold_left rbind]. rewrite A. apply IH; [apply step_ok; assumption|assumption|assumption]. }
  intros L. apply (G cs [] []); [split; [constructor|intros r []]| |assumption].
  split; [intros e []|]. split; [constructor|]. split; [constructor|]. reflexivity.
Qed.

(** ** Lookup in an index built by insertions *)
Definition build (l : list entry) : list entry := fold_left (fun acc e => insert_entry (fst e) (snd e) acc) l [].

Lemma build_ok l : (forall e, In e l -> P (fst e)) -> keys_in (build l) /\ sorted (build l) /\ Permutation (build l) l.
Proof.
  intros K. unfold build.
  assert (G : forall l acc, (forall e, In e l -> P (fst e)) -> keys_in acc -> sorted acc ->
    let r := fold_left (fun acc e => insert_entry (fst e) (snd e) acc) l acc in
    keys_in r /\ sorted r /\ Permutation r (acc ++ l)).
  { clear l K. induction l as [|e l IH]; intros acc K Ka Sa; cbn [fold_left].
    - rewrite app_nil_r. split; [assumption|]. split; [assumption|reflexivity].
    - assert (Pe : P (fst e)) by (apply K; left; reflexivity).
      destruct (IH (insert_entry (fst e) (snd e) acc)) as (H1 & H2 & H3).
      + intros x X. apply K. right. assumption.
      + apply insert_keys; assumption.
      + apply insert_sorted; assumption.
      + split; [assumption|]. split; [assumption|]. rewrite H3, insert_perm. destruct e. cbn [fst snd].
        rewrite <- Permutation_middle. reflexivity. }
  apply (G l []); [assumption|intros e []|constructor].
Qed.
End Ordered.

(** ** The engine *)
Definition to_index (i : live_index) : index := {| iaddr := lid i; iname := lname i; ikeys := lkeys i |}.

Record matches (e : engine) (s : engine_spec) : Prop := {
  m_storage : storage e = map to_index (lives s);
  m_heap : heap e = created s;
  m_ids : ids e = map (fun i => (i, i)) (seq 0 (created s));
  m_names : names e = map (fun i => (lname i, lid i)) (lives s);
  m_lids : NoDup (map lid (lives s));
  m_lnames : NoDup (map lname (lives s));
  m_bound : forall i, In i (lives s) -> lid i < created s;
  m_mapper : forall ks p, In (ks, p) (mapper e) -> exists i, In i (lives s) /\ lid i = p /\ lkeys i = ks }.

Lemma keys_eqb_spec a b : reflect (a = b) (keys_eqb a b).
Proof.
  revert b. induction a as [|x a IH]; intros [|y b]; cbn [keys_eqb]; try (constructor; congruence).
  destruct (beqb_spec x y) as [->|N]; cbn [andb]; [|constructor; congruence].
  destruct (IH b) as [->|N]; constructor; congruence.
Qed.

Lemma lookup_some {A B} (eqb : A -> A -> bool) (spec : forall a b, reflect (a = b) (eqb a b)) k (m : list (A * B)) v :
  lookup eqb k m = Some v -> In (k, v) m.
Proof.
  induction m as [|[k' v'] m IH]; cbn [lookup]; [discriminate|]. destruct (spec k k') as [->|N]; intros H.
  - injection H as ->. left. reflexivity.
  - right. apply IH, H.
Qed.
Lemma lookup_in {A B} (eqb : A -> A -> bool) (spec : forall a b, reflect (a = b) (eqb a b)) k (m : list (A * B)) v :
  NoDup (map fst m) -> In (k, v) m -> lookup eqb k m = Some v.
Proof.
  induction m as [|[k' v'] m IH]; cbn [lookup map fst]; intros N I; [destruct I|]. inversion N; subst.
  destruct I as [E|I].
  - injection E as -> ->. destruct (spec k k); [reflexivity|contradiction].
  - destruct (spec k k') as [->|_]; [|apply IH; assumption]. exfalso. apply H1.
    change k' with (fst (k', v)). apply in_map, I.
Qed.
Lemma lookup_none {A B} (eqb : A -> A -> bool) (spec : forall a b, reflect (a = b) (eqb a b)) k (m : list (A * B)) :
  lookup eqb k m = None <-> ~ In k (map fst m).
Proof.
  induction m as [|[k' v'] m IH]; cbn [lookup map fst]; [tauto|]. destruct (spec k k') as [->|N].
  - split; [discriminate|]. intros H. exfalso. apply H. left. reflexivity.
  - rewrite IH. cbn [In]. split; [intros H [E|I]; [congruence|tauto]|tauto].
Qed.

Lemma find_live l i : NoDup (map lid l) -> In i l ->
  find (fun j => Nat.eqb (iaddr j) (lid i)) (map to_index l) = Some (to_index i).
Proof.
  induction l as [|x l IH]; intros N I; [destruct I|]. cbn [map] in *. inversion N; subst. cbn [find to_index iaddr].
  destruct I as [->|I]; [rewrite Nat.eqb_refl; reflexivity|].
  destruct (Nat.eqb_spec (lid x) (lid i)) as [E|_]; [|apply IH; assumption].
  exfalso. apply H1. rewrite E. apply in_map, I.
Qed.

Lemma live_points e s i : matches e s -> In i (lives s) -> points_to e (lid i) i.
Proof.
  intros M I. exists (to_index i). unfold deref. rewrite (m_storage e s M), (find_live _ _ (m_lids e s M) I).
  split; [reflexivity|]. split; reflexivity.
Qed.

Lemma name_lookup e s n : matches e s ->
  match matching_name e n with
  | Some p => exists i, In i (lives s) /\ lname i = n /\ p = lid i
  | None => forall i, In i (lives s) -> lname i <> n
  end.
Proof.
  intros M. unfold matching_name. rewrite (m_names e s M).
  destruct (lookup beqb n _) as [p|] eqn:L.
  - apply (lookup_some beqb beqb_spec) in L. apply in_map_iff in L. destruct L as (i & E & I). exists i.
    injection E as E1 E2. auto.
  - apply (lookup_none beqb beqb_spec) in L. intros i I E. apply L. rewrite map_map. cbn [fst].
    rewrite <- E. apply (in_map lname), I.
Qed.

Lemma existsb_name n l : existsb (fun i => beqb n (lname i)) l = false <-> forall i, In i l -> lname i <> n.
Proof.
  split.
  - intros H i I E. assert (X : existsb (fun i => beqb n (lname i)) l = true).
    { apply existsb_exists. exists i. split; [assumption|]. rewrite E. destruct (beqb_spec n n); [reflexivity|contradiction]. }
    congruence.
  - intros H. apply Bool.not_true_is_false. intros X. apply existsb_exists in X. destruct X as (i & I & E).
    destruct (beqb_spec n (lname i)) as [->|]; [|discriminate]. exact (H i I eq_refl).
Qed.

Lemma filter_name l n i : NoDup (map lid l) -> NoDup (map lname l) -> In i l -> lname i = n ->
  filter (fun j => negb (beqb n (lname j))) l = filter (fun j => negb (Nat.eqb (lid j) (lid i))) l.
Proof.
  intros N1 N2 I E. apply filter_ext_in. intros j J. f_equal.
  assert (INJ : forall (f : live_index -> nat), NoDup (map f l) -> f i = f j -> i = j).
  { intros f N. clear -N I J. induction l as [|x l IH]; [destruct I|]. cbn [map] in N. inversion N; subst.
    intros Ef. destruct I as [->|I], J as [->|J]; [reflexivity| | |apply IH; assumption].
    - exfalso. apply H1. rewrite Ef. apply in_map, J.
    - exfalso. apply H1. rewrite <- Ef. apply in_map, I. }
  destruct (beqb_spec n (lname j)) as [Ej|Nj].
  - assert (INJ2 : i = j).
    { clear -N2 I J E Ej. assert (Ef : lname i = lname j) by congruence.
      induction l as [|x l IH]; [destruct I|]. cbn [map] in N2. inversion N2; subst.
      destruct I as [->|I], J as [->|J]; [reflexivity| | |apply IH; assumption].
      - exfalso. apply H1. rewrite Ef. apply in_map, J.
      - exfalso. apply H1. rewrite <- Ef. apply in_map, I. }
    subst j. rewrite Nat.eqb_refl. reflexivity.
  - destruct (Nat.eqb_spec (lid j) (lid i)) as [Q|_]; [|reflexivity].
    apply (INJ lid N1) in Q || (symmetry in Q; apply (INJ lid N1) in Q). subst j. congruence.
Qed.

Lemma filter_map_comm {A B} (f : A -> B) (p : B -> bool) l : filter p (map f l) = map f (filter (fun x => p (f x)) l).
Proof. induction l as [|x l IH]; [reflexivity|]. cbn [map filter]. destruct (p (f x)); cbn [map]; rewrite IH; reflexivity. Qed.

Lemma NoDup_filter_map {A B} (f : A -> B) (p : A -> bool) l : NoDup (map f l) -> NoDup (map f (filter p l)).
Proof.
  induction l as [|x l IH]; intros N; [constructor|]. cbn [map] in N. inversion N; subst. cbn [filter].
  destruct (p x); [|apply IH; assumption]. cbn [map]. constructor; [|apply IH; assumption].
  intros I. apply H1. apply in_map_iff in I. destruct I as (y & E & I). apply filter_In in I. rewrite <- E.
  apply in_map, I.
Qed.

Lemma emplace_in {A B} (eqb : A -> A -> bool) k (v : B) m x : In x (emplace eqb k v m) -> In x m \/ x = (k, v).
Proof.
  unfold emplace. destruct (lookup eqb k m); [left; assumption|]. intros I. apply in_app_or in I.
  destruct I as [I|[E|[]]]; [left; assumption|right; symmetry; assumption].
Qed.

Lemma serve_matches e s r : matches e s ->
  exists e', serve e r = Ok e' /\ matches e' (spec_serve s r).
Proof.
  intros M. destruct r as [n ks|n]; cbn [serve spec_serve].
  - pose proof (name_lookup e s n M) as L. unfold create. destruct (matching_name e n) as [p|] eqn:MN.
    + destruct L as (i & I & E & _). exists e. split; [reflexivity|].
      destruct (existsb _ _) eqn:X; [assumption|]. exfalso. rewrite existsb_name in X. exact (X i I E).
    + apply existsb_name in L. rewrite L. unfold add_index. cbn [fst]. eexists. split; [reflexivity|].
      rewrite existsb_name in L. destruct M. split; cbn [storage mapper ids names heap lives created].
      * rewrite m_storage0, m_heap0, map_app. reflexivity.
      * rewrite m_heap0. reflexivity.
      * rewrite m_ids0, m_heap0, map_length, seq_length. unfold emplace.
        destruct (lookup Nat.eqb (created s) _) as [p|] eqn:LK.
        -- apply (lookup_some Nat.eqb Nat.eqb_spec) in LK. apply in_map_iff in LK. destruct LK as (x & E & I).
           apply in_seq in I. injection E as E1 E2. lia.
        -- rewrite seq_S, map_app. reflexivity.
      * unfold emplace. unfold matching_name in MN. rewrite MN, m_names0, m_heap0, map_app. reflexivity.
      * rewrite map_app. apply NoDup_app; [assumption|repeat constructor; intros []|].
        intros x X [<-|[]]. apply in_map_iff in X. destruct X as (i & E & I). cbn [lid] in E. specialize (m_bound0 i I). lia.
      * rewrite map_app. apply NoDup_app; [assumption|repeat constructor; intros []|].
        intros x X [<-|[]]. apply in_map_iff in X. destruct X as (i & E & I). exact (L i I E).
      * intros i I. apply in_app_or in I. destruct I as [I|[<-|[]]]; [specialize (m_bound0 i I); lia|cbn [lid]; lia].
      * intros k p I. apply emplace_in in I. destruct I as [I|E].
        -- destruct (m_mapper0 k p I) as (i & I' & E). exists i. split; [apply in_or_app; left; assumption|assumption].
        -- injection E as -> ->. eexists. split; [apply in_or_app; right; left; reflexivity|]. cbn. auto.
  - pose proof (name_lookup e s n M) as L. unfold drop. destruct (matching_name e n) as [p|] eqn:MN.
    + destruct L as (i & I & E & ->). destruct M. unfold drop_index, deref. rewrite m_storage0, (find_live _ _ m_lids0 I).
      cbn [rbind]. eexists. split; [reflexivity|].
      pose proof (filter_name _ n i m_lids0 m_lnames0 I E) as FN.
      split; cbn [storage mapper ids names heap lives created to_index ikeys iname iaddr].
      * rewrite filter_map_comm. cbn [to_index iaddr]. rewrite FN. reflexivity.
      * assumption.
      * assumption.
      * rewrite m_names0. unfold erase. rewrite filter_map_comm. cbn [fst]. rewrite E. reflexivity.
      * apply NoDup_filter_map. assumption.
      * apply NoDup_filter_map. assumption.
      * intros j J. apply filter_In in J. apply m_bound0, J.
      * intros k p J. unfold erase in J. apply filter_In in J. destruct J as [J K]. cbn [fst] in K.
        destruct (m_mapper0 k p J) as (j & Ij & E1 & E2). exists j. split; [|auto].
        rewrite FN. apply filter_In. split; [assumption|].
        destruct (Nat.eqb_spec (lid j) (lid i)) as [Q|_]; [|reflexivity]. exfalso.
        assert (J' : j = i).
        { clear -m_lids0 I Ij Q. induction (lives s) as [|x l IH]; [destruct I|]. cbn [map] in m_lids0. inversion m_lids0; subst.
          destruct I as [->|I], Ij as [->|Ij]; [reflexivity| | |apply IH; assumption].
          - exfalso. apply H1. rewrite <- Q. apply in_map, Ij.
          - exfalso. apply H1. rewrite Q. apply in_map, I. }
        subst j. rewrite <- E2 in K. destruct (keys_eqb_spec (lkeys i) (lkeys i)); [discriminate|contradiction].
    + exists e. split; [reflexivity|].
      assert (F : filter (fun i => negb (beqb n (lname i))) (lives s) = lives s).
      { apply filter_all. intros i I. destruct (beqb_spec n (lname i)) as [->|]; [|reflexivity].
        exfalso. exact (L i I eq_refl). }
      rewrite F. destruct s. assumption.
Qed.

Lemma serve_all_matches rs : exists e, serve_all rs = Ok e /\ matches e (spec_all rs).
Proof.
  unfold serve_all, spec_all.
  assert (G : forall rs e s, matches e s ->
    exists e', fold_left (fun acc r => do e <- acc; serve e r) rs (Ok e) = Ok e' /\ matches e' (fold_left spec_serve rs s)).
  { clear rs. induction rs as [|r rs IH]; intros e s M; [exists e; split; [reflexivity|assumption]|].
    destruct (serve_matches e s r M) as (e' & E & M'). cbn [fold_left rbind]. rewrite E. apply IH, M'. }
  apply G. split; cbn; try constructor; intros; contradiction.
Qed.

(** Keys that are distinct throughout: every live index is in the mapper. *)
Definition complete (e : engine) (s : engine_spec) : Prop :=
  NoDup (map fst (mapper e)) /\ (forall i, In i (lives s) -> In (lkeys i, lid i) (mapper e)) /\
  NoDup (map lkeys (lives s)).

Lemma serve_complete e s r e' : matches e s -> complete e s -> distinct_keys s [r] -> serve e r = Ok e' ->
  complete e' (spec_serve s r).
Proof.
  intros M (C1 & C2 & C3) D H. destruct r as [n ks|n]; cbn [serve spec_serve distinct_keys] in *.
  - destruct D as [D _]. unfold create in H. pose proof (name_lookup e s n M) as L.
    destruct (matching_name e n) as [p|] eqn:MN.
    + injection H as <-. destruct L as (i & I & E & _).
      destruct (existsb _ _) eqn:X; [split; auto|]. exfalso. rewrite existsb_name in X. exact (X i I E).
    + apply existsb_name in L. rewrite L. unfold add_index in H. injection H as <-.
      assert (LK : lookup keys_eqb ks (mapper e) = None).
      { apply (lookup_none keys_eqb keys_eqb_spec). intros I. apply in_map_iff in I. destruct I as ([k p] & E & I). cbn in E. subst k.
        destruct (m_mapper e s M ks p I) as (i & I' & _ & E). apply D. rewrite <- E. apply in_map, I'. }
      split; [|split]; cbn [mapper lives].
      * unfold emplace. rewrite LK, map_app. apply NoDup_app; [assumption|repeat constructor; intros []|].
        intros x X [<-|[]]. apply (lookup_none keys_eqb keys_eqb_spec) in LK. contradiction.
      * intros i I. unfold emplace. rewrite LK. apply in_or_app. apply in_app_or in I.
        destruct I as [I|[<-|[]]]; [left; apply C2, I|right; left; cbn; rewrite (m_heap e s M); reflexivity].
      * rewrite map_app. apply NoDup_app; [assumption|repeat constructor; intros []|].
        intros x X [<-|[]]. contradiction.
  - unfold drop in H. pose proof (name_lookup e s n M) as L. destruct (matching_name e n) as [p|] eqn:MN.
    + destruct L as (i & I & E & ->). unfold drop_index, deref in H.
      rewrite (m_storage e s M), (find_live _ _ (m_lids e s M) I) in H. cbn [rbind] in H. injection H as <-.
      rewrite (filter_name _ n i (m_lids e s M) (m_lnames e s M) I E).
      split; [|split]; cbn [mapper lives to_index ikeys].
      * unfold erase. apply NoDup_filter_map. assumption.
      * intros j J. apply filter_In in J. destruct J as [J K]. unfold erase. apply filter_In. split; [apply C2, J|].
        cbn [fst]. destruct (keys_eqb_spec (lkeys i) (lkeys j)) as [Q|_]; [|reflexivity]. exfalso.
        assert (J' : j = i).
        { clear -C3 I J Q. induction (lives s) as [|x l IH]; [destruct I|]. cbn [map] in C3. inversion C3; subst.
          destruct I as [->|I], J as [->|J]; [reflexivity| | |apply IH; assumption].
          - exfalso. apply H1. rewrite Q. apply in_map, J.
          - exfalso. apply H1. rewrite <- Q. apply in_map, I. }
        subst j. rewrite Nat.eqb_refl in K. discriminate.
      * apply NoDup_filter_map. assumption.
    + injection H as <-.
      assert (F : filter (fun i => negb (beqb n (lname i))) (lives s) = lives s).
      { apply filter_all. intros i I. destruct (beqb_spec n (lname i)) as [->|]; [|reflexivity].
        exfalso. exact (L i I eq_refl). }
      rewrite F. split; auto.
Qed.

Lemma serve_all_complete rs : distinct_keys {| lives := []; created := 0 |} rs ->
  exists e, serve_all rs = Ok e /\ matches e (spec_all rs) /\ complete e (spec_all rs).
Proof.
  unfold serve_all, spec_all.
  assert (G : forall rs e s, matches e s -> complete e s -> distinct_keys s rs ->
    exists e', fold_left (fun acc r => do e <- acc; serve e r) rs (Ok e) = Ok e' /\
      matches e' (fold_left spec_serve rs s) /\ complete e' (fold_left spec_serve rs s)).
  { clear rs. induction rs as [|r rs IH]; intros e s M C D; [exists e; auto|].
    destruct (serve_matches e s r M) as (e' & E & M'). cbn [fold_left rbind]. rewrite E. destruct D as [D1 D2].
    apply IH; [assumption| |assumption]. apply (serve_complete e s r e' M C); [|assumption]. split; [assumption|exact I]. }
  intros D. apply G; [| |assumption].
  - split; cbn; try constructor; intros; contradiction.
  - split; [constructor|]. split; [intros i []|constructor].
Qed.

(** ** Putting it together *)
Lemma lookup_exact P c v cs : ordered P -> P v -> legal_all P oldest [] cs ->
  exists idx, apply_all cs = Ok idx /\
    Permutation (search c v (-1) idx) (filter (fun e => holds_for c v (fst e)) (map row_entry (live cs))) /\
    StronglySorted (fun a b => vltb (fst b) (fst a) = false) (search c v (-1) idx) /\
    forall limit, search c v limit idx = limited limit (search c v (-1) idx) /\
                  search_table c v limit idx = search c v limit idx.
Proof.
  intros O Pv L. destruct (exact_all P O cs L) as (idx & A & K & S & PM & _). exists idx. split; [assumption|].
  assert (SF : forall limit, search c v limit idx = limited limit (filter (fun e => holds_for c v (fst e)) idx)).
  { intros limit. apply (search_filter P O); assumption. }
  split; [rewrite SF; apply filter_perm, PM|]. split.
  - rewrite SF. unfold limited. cbn [Z.eqb Pos.eqb]. clear -S. unfold sorted in S.
    induction S as [|e l S IH F]; [constructor|]. cbn [filter]. destruct (holds_for c v (fst e)); [|assumption].
    constructor; [assumption|]. apply Forall_forall. intros x X. apply filter_In in X.
    rewrite Forall_forall in F. apply F, X.
  - intros limit. split; [|apply search_table_same]. rewrite !SF. reflexivity.
Qed.

Lemma follow_counts P cs : ordered P -> legal_all P (fun _ _ => True) [] cs ->
  exists idx, apply_all cs = Ok idx /\ length idx = length (live cs) /\
    forall v, P v -> length (filter (fun e => veqb (fst e) v) idx) = length (filter (fun r => veqb (snd r) v) (live cs)).
Proof.
  intros O L.
  assert (G : forall cs l rs, rows_ok P rs -> counts P l rs -> length l = length rs ->
    legal_all P (fun _ _ => True) rs cs ->
    exists l', fold_left (fun acc c => do l <- acc; apply l c) cs (Ok l) = Ok l' /\ counts P l' (fold_left step cs rs) /\
      length l' = length (fold_left step cs rs)).
  { clear cs L. induction cs as [|c cs IH]; intros l rs R C N L; [exists l; auto|].
    destruct L as (L1 & _ & L2). destruct (counts_step P O l rs c R C L1) as (l' & A & C').
    cbn [fold_left rbind]. rewrite A. apply IH; [apply step_ok; assumption|assumption| |assumption].
    destruct c as [id k|id k]; cbn [apply] in A.
    - injection A as <-. rewrite (Permutation_length (insert_perm k id l)). cbn [step]. rewrite app_length. cbn. lia.
    - destruct (delete_split P rs id k R L1) as (X & Y & RS & ST). rewrite ST. rewrite RS, app_length in N. cbn in N.
      unfold remove_key in A. destruct (find_pos k l) as [i|] eqn:F; [|discriminate].
      assert (A' : l' = firstn i l ++ skipn (S i) l) by congruence. rewrite A'.
      unfold find_pos in F. destruct (nth_error l (lower_bound k l)) as [e|] eqn:NE; [|discriminate].
      destruct (vltb k (fst e)); [discriminate|]. injection F as <-.
      assert (lower_bound k l < length l) by (apply nth_error_Some; congruence).
      rewrite !app_length, firstn_length, skipn_length. lia. }
  destruct (G cs [] []) as (idx & A & (_ & _ & C) & N); [split; [constructor|intros r []]| |reflexivity|assumption|].
  - split; [intros e []|]. split; [constructor|]. reflexivity.
  - exists idx. split; [assumption|]. split; [assumption|]. intros v Pv. specialize (C v Pv).
    unfold row_class, class in C. rewrite C. clear. unfold live. fold (live cs).
    induction (live cs) as [|r rs IH]; [reflexivity|]. cbn [map filter row_entry fst snd].
    destruct (veqb (snd r) v); cbn [length]; rewrite IH; reflexivity.
Qed.

Lemma follow_exact P cs : ordered P -> legal_all P oldest [] cs ->
  exists idx, apply_all cs = Ok idx /\ Permutation idx (map row_entry (live cs)).
Proof. intros O L. destruct (exact_all P O cs L) as (idx & A & _ & _ & PM & _). exists idx. auto. Qed.

Lemma by_name rs : exists e, serve_all rs = Ok e /\ forall n,
  match matching_name e n with
  | Some p => exists i, In i (lives (spec_all rs)) /\ lname i = n /\ points_to e p i
  | None => forall i, In i (lives (spec_all rs)) -> lname i <> n
  end.
Proof.
  destruct (serve_all_matches rs) as (e & E & M). exists e. split; [assumption|]. intros n.
  pose proof (name_lookup e _ n M) as L. destruct (matching_name e n) as [p|]; [|assumption].
  destruct L as (i & I & En & ->). exists i. split; [assumption|]. split; [assumption|]. apply (live_points e _ i M I).
Qed.

Lemma by_id rs : exists e, serve_all rs = Ok e /\
  (forall i, In i (lives (spec_all rs)) -> exists p, matching_id e (lid i) = Ok p /\ points_to e p i) /\
  (forall n ks e' i, create e n ks = (e', Some i) ->
     i = created (spec_all rs) /\ forall j, In j (lives (spec_all rs)) -> lid j <> i).
Proof.
  destruct (serve_all_matches rs) as (e & E & M). exists e. split; [assumption|]. split.
  - intros i I. exists (lid i). split; [|apply (live_points e _ i M I)].
    unfold matching_id. rewrite (m_ids e _ M).
    rewrite (lookup_in Nat.eqb Nat.eqb_spec (lid i) _ (lid i)); [reflexivity| |].
    + rewrite map_map. cbn [fst]. rewrite map_id. apply seq_NoDup.
    + apply in_map_iff. exists (lid i). split; [reflexivity|]. apply in_seq. pose proof (m_bound e _ M i I). lia.
  - intros n ks e' i H. unfold create in H. destruct (matching_name e n); [discriminate|]. unfold add_index in H.
    injection H as _ H. rewrite (m_ids e _ M), map_length, seq_length in H. subst i. split; [reflexivity|].
    intros j J. pose proof (m_bound e _ M j J). lia.
Qed.

Lemma by_keys_sound rs : exists e, serve_all rs = Ok e /\ forall ks p, matching_keys e ks = Some p ->
  exists i, In i (lives (spec_all rs)) /\ lkeys i = ks /\ points_to e p i.
Proof.
  destruct (serve_all_matches rs) as (e & E & M). exists e. split; [assumption|]. intros ks p H.
  apply (lookup_some keys_eqb keys_eqb_spec) in H. destruct (m_mapper e _ M ks p H) as (i & I & <- & K).
  exists i. split; [assumption|]. split; [assumption|]. apply (live_points e _ i M I).
Qed.

Lemma by_keys_complete rs : distinct_keys {| lives := []; created := 0 |} rs ->
  exists e, serve_all rs = Ok e /\ forall i, In i (lives (spec_all rs)) ->
    exists p, matching_keys e (lkeys i) = Some p /\ points_to e p i.
Proof.
  intros D. destruct (serve_all_complete rs D) as (e & E & M & C1 & C2 & _). exists e. split; [assumption|].
  intros i I. exists (lid i). split; [|apply (live_points e _ i M I)].
  apply (lookup_in keys_eqb keys_eqb_spec); [assumption|apply C2, I].
Qed.
