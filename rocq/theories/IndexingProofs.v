From Verif Require Import Bytes Outcome IndexingModel IndexingSpec.

Lemma pick_nth {A} (data : list A) idx l i : pick data idx = Some l ->
  nth_error l i = match nth_error idx i with Some k => nth_error data k | None => None end.
Proof.
  revert l i. induction idx as [|k idx IH]; intros l i H; cbn in H.
  - injection H as <-. rewrite !nth_error_nil || idtac. destruct i; reflexivity.
  - destruct (nth_error data k) eqn:E; [|discriminate]. destruct (pick data idx) as [l'|] eqn:P; [|discriminate].
    injection H as <-. destruct i; cbn; [auto|]. apply IH. reflexivity.
Qed.

Lemma pick_length {A} (data : list A) idx l : pick data idx = Some l -> length l = length idx.
Proof.
  revert l. induction idx as [|k idx IH]; intros l H; cbn in H.
  - injection H as <-. reflexivity.
  - destruct (nth_error data k) eqn:E; [|discriminate]. destruct (pick data idx) as [l'|] eqn:P; [|discriminate].
    injection H as <-. cbn. f_equal. apply IH. reflexivity.
Qed.

Lemma firstn_nth {A} n (l : list A) i : (i < n)%nat -> nth_error (firstn n l) i = nth_error l i.
Proof.
  revert l i. induction n as [|n IH]; intros l i H; [lia|]. destruct l; [destruct i; reflexivity|].
  destruct i; [reflexivity|]. cbn. apply IH. lia.
Qed.

(** selecting row by row *)
Lemma select_nth {A} v n (data : list A) l : select v n data = Some l ->
  length l = n /\ forall i, (i < n)%nat ->
    exists k, get_index v i = Ok k /\ nth_error l i = nth_error data k /\ nth_error data k <> None.
Proof.
  destruct v as [idx|]; cbn; intros H.
  - destruct (Nat.leb_spec n (length idx)); [|discriminate]. split.
    + rewrite (pick_length _ _ _ H), firstn_length. lia.
    + intros i Hi. destruct (nth_error idx i) as [k|] eqn:E; [|apply nth_error_None in E; lia].
      exists k. split; [reflexivity|].
      rewrite (pick_nth _ _ _ i H), firstn_nth, E by exact Hi. split; [reflexivity|].
      assert (nth_error l i <> None).
      { apply nth_error_Some. rewrite (pick_length _ _ _ H), firstn_length. lia. }
      rewrite (pick_nth _ _ _ i H), firstn_nth, E in H1 by exact Hi. exact H1.
  - destruct (Nat.leb_spec n (length data)); [|discriminate]. injection H as <-. split.
    + rewrite firstn_length. lia.
    + intros i Hi. exists i. split; [reflexivity|]. rewrite firstn_nth by exact Hi. split; [reflexivity|].
      apply nth_error_Some. lia.
Qed.

Lemma nth_ext_some {A} (a b : list A) : length a = length b ->
  (forall i, (i < length a)%nat -> nth_error a i = nth_error b i) -> a = b.
Proof.
  revert b. induction a as [|x a IH]; intros [|y b] L H; try discriminate; [reflexivity|].
  pose proof (H 0 ltac:(cbn; lia)) as H0. cbn in H0. injection H0 as ->. f_equal. apply IH; [injection L; auto|].
  intros i Hi. apply (H (S i)). cbn. lia.
Qed.

Lemma slice_loop_spec v w n : forall i,
  (forall j, (i <= j < i + n)%nat -> exists x y, get_index w j = Ok x /\ get_index v x = Ok y) ->
  exists l, slice_loop v w i n = Ok l /\ length l = n /\
  forall j, (j < n)%nat -> exists x, get_index w (i + j) = Ok x /\ nth_error l j = match get_index v x with Ok y => Some y | Err _ => None end.
Proof.
  induction n as [|n IH]; intros i H.
  - exists []. repeat split. lia.
  - cbn [slice_loop]. destruct (H i ltac:(lia)) as (x & y & Hx & Hy). rewrite Hx. cbn [rbind]. rewrite Hy. cbn [rbind].
    destruct (IH (S i)) as (l & Hl & Ll & Hn); [intros j Hj; apply H; lia|].
    rewrite Hl. cbn [rbind]. exists (y :: l). split; [reflexivity|]. split; [cbn; lia|].
    intros [|j] Hj.
    + exists x. rewrite Nat.add_0_r. split; [exact Hx|]. rewrite Hy. reflexivity.
    + destruct (Hn j ltac:(lia)) as (x' & Hx' & Hnx). exists x'. replace (i + S j)%nat with (S i + j)%nat by lia.
      split; [exact Hx'|exact Hnx].
Qed.

Lemma pick_all {A} (data : list A) idx : (forall i, In i idx -> nth_error data i <> None) ->
  exists l, pick data idx = Some l.
Proof.
  induction idx as [|k idx IH]; intros H; [exists []; reflexivity|].
  destruct IH as [l Hl]; [intros i Hi; apply H; right; exact Hi|].
  specialize (H k (or_introl eq_refl)). cbn. destruct (nth_error data k) as [x|]; [|contradiction].
  rewrite Hl. exists (x :: l). reflexivity.
Qed.

Lemma slice_composes {A} (data : list A) v w m n mid out :
  select v m data = Some mid -> select w n mid = Some out ->
  exists u, slice v w n = Ok u /\ select u n data = Some out.
Proof.
  intros H1 H2. destruct (select_nth _ _ _ _ H1) as [L1 N1]. destruct (select_nth _ _ _ _ H2) as [L2 N2].
  assert (G : forall j, (j < n)%nat -> exists x y, get_index w j = Ok x /\ get_index v x = Ok y /\
                nth_error out j = nth_error data y /\ nth_error data y <> None).
  { intros j Hj. destruct (N2 j Hj) as (x & Hx & Ho & Hm). exists x.
    assert (Hxm : (x < m)%nat) by (rewrite <- L1; apply nth_error_Some; exact Hm).
    destruct (N1 x Hxm) as (y & Hy & Hd & Hnn). exists y. repeat split; auto. congruence. }
  destruct (slice_loop_spec v w n 0) as (l & Hl & Ll & Hn).
  { intros j Hj. destruct (G j ltac:(lia)) as (x & y & A1 & A2 & _). exists x, y. auto. }
  exists (Some l). unfold slice. rewrite Hl. split; [reflexivity|].
  cbn [select]. rewrite Ll, Nat.leb_refl, firstn_all2 by lia.
  assert (P : exists l', pick data l = Some l').
  { apply pick_all. intros y Hy. apply In_nth_error in Hy as [j Hj].
    assert (Hjn : (j < n)%nat) by (rewrite <- Ll; apply nth_error_Some; congruence).
    destruct (Hn j Hjn) as (x & Hx & Hnx). destruct (G j Hjn) as (x' & y' & A1 & A2 & A3 & A4).
    cbn in Hx. rewrite Hx in A1. injection A1 as <-. rewrite A2 in Hnx. congruence. }
  destruct P as [l' Hl']. rewrite Hl'. f_equal.
  pose proof (pick_length _ _ _ Hl') as Lp.
  apply nth_ext_some; [congruence|]. intros j Hj.
  assert (Hjn : (j < n)%nat) by congruence.
  rewrite (pick_nth _ _ _ j Hl').
  destruct (Hn j Hjn) as (x & Hx & Hnx). destruct (G j Hjn) as (x' & y' & A1 & A2 & A3 & A4).
  cbn in Hx. rewrite Hx in A1. injection A1 as <-. rewrite Hnx, A2. congruence.
Qed.

Lemma list_set_nth {A} (l : list A) i x j : (i < length l)%nat ->
  nth_error (list_set l i x) j = if (j =? i)%nat then Some x else nth_error l j.
Proof.
  revert i j. induction l as [|y l IH]; intros i j H; [cbn in H; lia|].
  destruct i, j; cbn; auto. apply IH. cbn in H. lia.
Qed.

Lemma set_get v i x v' j : set_index v i x = Ok v' ->
  get_index v' j = if (j =? i)%nat then Ok x else get_index v j.
Proof.
  destruct v as [l|]; unfold set_index; [|discriminate]. destruct (Nat.ltb_spec i (length l)); [|discriminate].
  intros E. injection E as <-. cbn. rewrite list_set_nth by assumption. destruct (j =? i)%nat; reflexivity.
Qed.

Lemma range_get start count i : (i < count)%nat -> get_index (range start count) i = Ok (start + i)%nat.
Proof.
  intros H. cbn. rewrite nth_error_nth' with (d := O) by (rewrite seq_length; lia).
  rewrite seq_nth by lia. reflexivity.
Qed.
