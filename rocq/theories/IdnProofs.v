From Coq Require Import Sorting.Sorted.
From Verif Require Import Bytes Outcome ByteOrd IdnModel IdnSpec.

Definition before (a b : list byte) : Prop := bcmp a b = Lt.
Fixpoint increasing (l : list (list byte)) : bool :=
  match l with a :: (b :: _) as r => match bcmp a b with Lt => increasing r | _ => false end | _ => true end.
Lemma increasing_sorted l : increasing l = true -> StronglySorted before l.
Proof.
  intros H. apply Sorted_StronglySorted; [exact bcmp_trans|].
  induction l as [|a [|b l] IH]; [constructor|constructor; constructor|].
  cbn [increasing] in H. destruct (bcmp a b) eqn:E; try discriminate H. constructor; [exact (IH H)|constructor; exact E].
Qed.
Lemma sorted_nth l : StronglySorted before l -> forall i j a b, (i < j)%nat -> nth_error l i = Some a -> nth_error l j = Some b -> bcmp a b = Lt.
Proof.
  induction 1 as [|x l S IH F]; intros i j a b L A B; [destruct i; discriminate A|].
  destruct j as [|j]; [lia|]. cbn [nth_error] in B. destruct i as [|i].
  - injection A as ->. rewrite Forall_forall in F. exact (F b (nth_error_In _ _ B)).
  - exact (IH i j a b (proj2 (Nat.succ_lt_mono i j) L) A B).
Qed.
Lemma search_right l w : StronglySorted before l -> forall n lo hi, (hi - lo < n)%nat -> (hi <= length l)%nat ->
  (forall i, nth_error l i = Some w -> (lo <= i < hi)%nat) ->
  search l n lo hi w = Ok (if existsb (fun k => beqb k w) l then Some w else None).
Proof.
  intros S. induction n as [|n IH]; intros lo hi L H I; [lia|]. cbn [search]. destruct (Nat.ltb_spec lo hi) as [C|C].
  - set (m := (lo + (hi - 1 - lo) / 2)%nat).
    assert (M : (lo <= m < hi)%nat).
    { unfold m. pose proof (Nat.div_le_upper_bound (hi - 1 - lo) 2 (hi - 1 - lo)). lia. }
    destruct (nth_error l m) as [k|] eqn:K; [|apply nth_error_None in K; lia].
    destruct (bcmp k w) eqn:B.
    + apply bcmp_eq in B. subst k.
      replace (existsb (fun k => beqb k w) l) with true; [reflexivity|]. symmetry. apply existsb_exists. exists w.
      split; [exact (nth_error_In _ _ K)|apply beqb_refl].
    + apply IH; [lia|lia|]. intros i E. specialize (I i E). split; [|lia]. destruct (Nat.lt_ge_cases m i) as [|G]; [lia|].
      destruct (Nat.eq_dec i m) as [->|]; [rewrite K in E; injection E as ->; rewrite bcmp_refl in B; discriminate|].
      pose proof (sorted_nth l S i m w k ltac:(lia) E K) as X. rewrite bcmp_sym, B in X. discriminate X.
    + apply IH; [lia|lia|]. intros i E. specialize (I i E). split; [lia|]. destruct (Nat.lt_ge_cases i m) as [|G]; [lia|].
      destruct (Nat.eq_dec i m) as [->|]; [rewrite K in E; injection E as ->; rewrite bcmp_refl in B; discriminate|].
      pose proof (sorted_nth l S m i k w ltac:(lia) K E) as X. rewrite B in X. discriminate X.
  - destruct (existsb (fun k => beqb k w) l) eqn:X; [|reflexivity]. apply existsb_exists in X. destruct X as (k & X & E).
    apply beqb_eq in E. subst k. destruct (In_nth_error _ _ X) as [i Y]. specialize (I i Y). lia.
Qed.
Lemma keywords_sorted : StronglySorted before keywords.
Proof. apply increasing_sorted. vm_compute. reflexivity. Qed.
Lemma keywords_short k : In k keywords -> (length k < 64)%nat.
Proof.
  assert (F : forallb (fun k => length k <? 64)%nat keywords = true) by (vm_compute; reflexivity).
  rewrite forallb_forall in F. intros I. apply Nat.ltb_lt. exact (F k I).
Qed.
Lemma lower_small s : map lower s = small s.
Proof.
  unfold small. apply map_ext. intros c. destruct c as [[] [] [] [] [] [] [] []]; vm_compute; reflexivity.
Qed.
Lemma small_length s : length (small s) = length s.
Proof. apply map_length. Qed.
Lemma lookup_right s : keyword_lookup s = Ok (if existsb (fun k => beqb k (small s)) keywords then Some (small s) else None).
Proof.
  unfold keyword_lookup, name_length. rewrite lower_small. destruct (Nat.leb_spec 64 (length s)) as [L|L].
  - destruct (existsb (fun k => beqb k (small s)) keywords) eqn:X; [|reflexivity]. apply existsb_exists in X. destruct X as (k & X & E).
    apply beqb_eq in E. subst k. apply keywords_short in X. rewrite small_length in X. lia.
  - apply search_right; [exact keywords_sorted|lia|lia|]. intros i E. split; [lia|]. apply nth_error_Some. congruence.
Qed.
Lemma mblen_bounds c : (1 <= mblen c <= 4)%nat.
Proof. unfold mblen. repeat match goal with |- context [if ?b then _ else _] => destruct b end; lia. Qed.
Lemma clip_bounds n : forall s limit clen, no_zero s -> (clen <= limit)%nat -> (limit < clen + length s)%nat -> (length s <= n)%nat ->
  (limit - 3 <= clip n s limit clen <= limit)%nat.
Proof.
  induction n as [|n IH]; intros s limit clen Z A B C; [lia|]. destruct s as [|c s]; [cbn [length] in B; lia|].
  cbn [clip]. destruct (N.eqb_spec (N_of_byte c) 0) as [E|_]; [destruct (Z c (or_introl eq_refl) E)|].
  pose proof (mblen_bounds c) as M. destruct (Nat.ltb_spec limit (clen + mblen c)); [lia|].
  destruct (Nat.eqb_spec (clen + mblen c) limit); [lia|]. apply IH.
  - intros x I. apply Z. rewrite <- (firstn_skipn (mblen c) (c :: s)). apply in_or_app. now right.
  - lia.
  - rewrite skipn_length. cbn [length] in *. lia.
  - rewrite skipn_length. cbn [length] in *. lia.
Qed.
Lemma truncate_names s : no_zero s -> names s (truncate s).
Proof.
  intros Z. unfold names, truncate, name_length. destruct (Nat.leb_spec 64 (length s)) as [L|L]; destruct (Nat.ltb_spec (length s) 64) as [K|K]; try lia; [|reflexivity].
  pose proof (clip_bounds (length s) s (64 - 1) 0 Z ltac:(lia) ltac:(lia) ltac:(lia)) as B.
  exists (skipn (clip (length s) s (64 - 1) 0) s). split; [now rewrite firstn_skipn|]. rewrite firstn_length. lia.
Qed.
Lemma small_no_zero s : no_zero s -> no_zero (small s).
Proof.
  intros Z c I. rewrite <- lower_small in I. apply in_map_iff in I. destruct I as (x & <- & I). specialize (Z x I). revert Z.
  destruct x as [[] [] [] [] [] [] [] []]; vm_compute; congruence.
Qed.
Theorem word_right s : no_zero s ->
  (In (small s) keywords -> word s = Ok (Keyword (small s))) /\
  (~ In (small s) keywords -> exists name, word s = Ok (Ident name) /\ names (small s) name).
Proof.
  intros Z. unfold word. rewrite lookup_right. cbn [rbind]. split; intros I.
  - replace (existsb (fun k => beqb k (small s)) keywords) with true; [reflexivity|]. symmetry. apply existsb_exists.
    exists (small s). split; [exact I|apply beqb_refl].
  - destruct (existsb (fun k => beqb k (small s)) keywords) eqn:X.
    + apply existsb_exists in X. destruct X as (k & X & E). apply beqb_eq in E. subst k. destruct (I X).
    + exists (downcase_truncate s). split; [reflexivity|]. unfold downcase_truncate. rewrite lower_small.
      apply truncate_names. now apply small_no_zero.
Qed.
Theorem word_case a b : small a = small b -> word a = word b.
Proof. intros E. unfold word, downcase_truncate. rewrite !lookup_right, !lower_small, E. reflexivity. Qed.
Theorem quoted_right s : no_zero s -> s <> [] -> exists name, quoted s = Ok (Ident name) /\ names s name.
Proof. intros Z N. destruct s as [|c s]; [now destruct N|]. exists (truncate (c :: s)). split; [reflexivity|now apply truncate_names]. Qed.
