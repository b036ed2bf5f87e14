From Verif Require Import LockModel.
Local Open Scope Z_scope.

Definition ex (p : pc) : Z := match p with InExcl => 1 | _ => 0 end.
Definition sh (p : pc) : Z := match p with InShared => 1 | _ => 0 end.
Fixpoint sum (g : pc -> Z) (l : list pc) : Z := match l with [] => 0 | p :: r => g p + sum g r end.
Lemma sum_mid g a p b : sum g (a ++ p :: b) = sum g a + g p + sum g b.
Proof. induction a as [|x a IH]; cbn; [lia|rewrite IH; lia]. Qed.
Lemma sum_nonneg g l : (forall p, 0 <= g p) -> 0 <= sum g l.
Proof. intros H. induction l as [|p l IH]; cbn; [lia|specialize (H p); lia]. Qed.
Lemma ex_nn p : 0 <= ex p. Proof. destruct p; cbn; lia. Qed.
Lemma sh_nn p : 0 <= sh p. Proof. destruct p; cbn; lia. Qed.
Lemma sum_le g l : (forall p, g p <= 1) -> sum g l <= Z.of_nat (length l).
Proof. intros H. induction l as [|p l IH]; cbn [sum length]; [lia|specialize (H p); lia]. Qed.

Definition Inv (s : state) : Prop :=
  (sum ex (threads s) = 1 /\ sum sh (threads s) = 0 /\ flag s = min_long) \/
  (sum ex (threads s) = 0 /\ flag s = sum sh (threads s)).

Lemma Inv_init n : Inv (init n).
Proof.
  right. unfold init. cbn [threads flag].
  assert (forall g, g Out = 0 -> sum g (repeat Out n) = 0) as H.
  { intros g Hg. induction n as [|n IH]; cbn [repeat sum]; [reflexivity|rewrite Hg, IH; reflexivity]. }
  rewrite !H by reflexivity. auto.
Qed.

Lemma Inv_step s t : Inv s -> step s t -> Inv t.
Proof.
  intros I H. destruct H as [f pre p post f' p' T]. unfold Inv in *. cbn [threads flag] in *.
  rewrite !sum_mid in *.
  pose proof (sum_nonneg ex pre ex_nn). pose proof (sum_nonneg ex post ex_nn).
  pose proof (sum_nonneg sh pre sh_nn). pose proof (sum_nonneg sh post sh_nn).
  assert (min_long < 0) by reflexivity.
  destruct T; cbn [ex sh] in *; lia.
Qed.

Lemma Inv_steps n s : steps (init n) s -> Inv s.
Proof.
  intros H. remember (init n) as i eqn:E. induction H; [subst; apply Inv_init|]. eapply Inv_step; eauto.
Qed.

Lemma threads_length s t : step s t -> length (threads t) = length (threads s).
Proof. intros H. destruct H. cbn. rewrite !app_length. reflexivity. Qed.
Lemma threads_length_steps n s : steps (init n) s -> length (threads s) = n.
Proof.
  intros H. remember (init n) as i eqn:E. induction H; [subst; cbn; apply repeat_length|].
  rewrite (threads_length _ _ H0). auto.
Qed.

(** from counts to positions *)
Lemma sum_nth g l i p : (forall p, 0 <= g p) -> nth_error l i = Some p -> g p <= sum g l.
Proof.
  intros H. revert i. induction l as [|x l IH]; intros [|i] E; try discriminate; cbn [nth_error sum] in *.
  - injection E as ->. pose proof (sum_nonneg g l H). lia.
  - specialize (IH i E). specialize (H x). lia.
Qed.
Lemma sum_nth2 g l i j p q : (forall p, 0 <= g p) -> i <> j -> nth_error l i = Some p -> nth_error l j = Some q ->
  g p + g q <= sum g l.
Proof.
  intros H. revert i j. induction l as [|x l IH]; intros i j N A B; [destruct i; discriminate|].
  destruct i as [|i], j as [|j]; cbn [nth_error sum] in *; try congruence.
  - injection A as ->. pose proof (sum_nth g l j q H B). lia.
  - injection B as ->. pose proof (sum_nth g l i p H A). lia.
  - assert (i <> j) by congruence. specialize (IH i j H0 A B). specialize (H x). lia.
Qed.

Lemma exclusion n s i j p : steps (init n) s -> i <> j ->
  nth_error (threads s) i = Some InExcl -> nth_error (threads s) j = Some p -> p <> InExcl /\ p <> InShared.
Proof.
  intros R N A B. apply Inv_steps in R.
  pose proof (sum_nth ex _ _ _ ex_nn A) as H1. cbn in H1.
  pose proof (sum_nth2 ex _ _ _ _ _ ex_nn N A B) as H2. cbn in H2.
  pose proof (sum_nth sh _ _ _ sh_nn B) as H3.
  split; intros ->; cbn in *; destruct R as [(E & S & _)|(E & S)]; lia.
Qed.

(** the counter never leaves the range of long *)
Lemma flag_range n s : Z.of_nat n <= LONG_MAX -> steps (init n) s -> min_long <= flag s <= LONG_MAX.
Proof.
  intros Hn R. pose proof (threads_length_steps _ _ R) as L. apply Inv_steps in R.
  pose proof (sum_le sh (threads s)) as U. pose proof (sum_nonneg sh (threads s) sh_nn).
  assert (forall p, sh p <= 1) as H1 by (intros []; cbn; lia). specialize (U H1).
  assert (min_long < 0) by reflexivity. assert (0 < LONG_MAX) by reflexivity.
  destruct R as [(_ & _ & ->)|(_ & ->)]; lia.
Qed.

(** progress *)
Lemma free_flag s : Inv s -> (forall p, In p (threads s) -> p <> InExcl /\ p <> InShared) -> flag s = 0.
Proof.
  intros I H. assert (Z0 : forall g, (forall p, p <> InExcl /\ p <> InShared -> g p = 0) -> sum g (threads s) = 0).
  { intros g Hg. induction (threads s) as [|p l IH]; [reflexivity|]. cbn [sum]. rewrite Hg by (apply H; left; reflexivity).
    rewrite IH; [reflexivity|]. intros q Hq. apply H. right. exact Hq. }
  assert (sum ex (threads s) = 0) as E. { apply Z0. intros [] [A B]; try reflexivity; congruence. }
  assert (sum sh (threads s) = 0) as S. { apply Z0. intros [] [A B]; try reflexivity; congruence. }
  destruct I as [(X & _)|(_ & X)]; lia.
Qed.

Lemma noexcl_flag s : Inv s -> (forall p, In p (threads s) -> p <> InExcl) -> 0 <= flag s.
Proof.
  intros I H. assert (sum ex (threads s) = 0) as E.
  { induction (threads s) as [|p l IH]; [reflexivity|]. cbn [sum]. 
    assert (sum ex l = 0).
    { clear I IH. induction l as [|q l IHl]; [reflexivity|]. cbn [sum]. rewrite IHl.
      - assert (q <> InExcl) by (apply H; right; left; reflexivity). destruct q; cbn; congruence.
      - intros r [Hr|Hr]; apply H; [left|right; right]; assumption. }
    assert (p <> InExcl) by (apply H; left; reflexivity). destruct p; cbn [ex]; lia || congruence. }
  destruct I as [(X & _)|(_ & X)]; [lia|]. rewrite X. apply sum_nonneg, sh_nn.
Qed.

Lemma steps_one s t : step s t -> steps s t. Proof. intros H. eapply Steps_next; [constructor|exact H]. Qed.
Lemma steps_trans s t u : steps s t -> steps t u -> steps s u.
Proof. intros A B. revert A. induction B; intros A; [exact A|]. eapply Steps_next; [apply IHB; exact A|exact H]. Qed.
Lemma steps_cons s t u : step s t -> steps t u -> steps s u.
Proof. intros A B. eapply steps_trans; [apply steps_one; exact A|exact B]. Qed.

Lemma lock_progress n s pre p post : steps (init n) s -> threads s = pre ++ p :: post ->
  (p = LockStart \/ exists v, p = LockHave v) ->
  (forall q, In q (threads s) -> q <> InExcl /\ q <> InShared) ->
  steps s {| flag := min_long; threads := pre ++ InExcl :: post |}.
Proof.
  intros R E P H. apply Inv_steps in R. pose proof (free_flag s R H) as F.
  destruct s as [f ts]. cbn [flag threads] in *. subst f ts.
  assert (L0 : steps {| flag := 0; threads := pre ++ LockHave 0 :: post |} {| flag := min_long; threads := pre ++ InExcl :: post |}).
  { apply steps_one. constructor. constructor. reflexivity. }
  destruct P as [->|[v ->]].
  - eapply steps_cons; [constructor; constructor|exact L0].
  - destruct (Z.eq_dec v 0) as [->|N]; [exact L0|].
    eapply steps_cons; [constructor; apply T_lock_reload; exact N|exact L0].
Qed.

Lemma shared_progress n s pre p post : steps (init n) s -> threads s = pre ++ p :: post ->
  (p = SharedStart \/ exists v, p = SharedHave v) ->
  (forall q, In q (threads s) -> q <> InExcl) ->
  steps s {| flag := flag s + 1; threads := pre ++ InShared :: post |}.
Proof.
  intros R E P H. apply Inv_steps in R. pose proof (noexcl_flag s R H) as F.
  destruct s as [f ts]. cbn [flag threads] in *. subst ts.
  assert (L0 : steps {| flag := f; threads := pre ++ SharedHave f :: post |} {| flag := f + 1; threads := pre ++ InShared :: post |}).
  { apply steps_one. constructor. constructor; [exact F|reflexivity]. }
  destruct P as [->|[v ->]].
  - eapply steps_cons; [constructor; constructor|exact L0].
  - destruct (Z_lt_dec v 0) as [N|N].
    + eapply steps_cons; [constructor; apply T_shared_reload; exact N|exact L0].
    + eapply steps_cons; [constructor; apply T_shared_cas_fail; lia|exact L0].
Qed.

(** spin_lock *)
Definition sin (p : spc) : Z := match p with SIn => 1 | _ => 0 end.
Fixpoint ssum (l : list spc) : Z := match l with [] => 0 | p :: r => sin p + ssum r end.
Lemma ssum_mid a p b : ssum (a ++ p :: b) = ssum a + sin p + ssum b.
Proof. induction a as [|x a IH]; cbn; [lia|rewrite IH; lia]. Qed.
Lemma ssum_nn l : 0 <= ssum l. Proof. induction l as [|[] l IH]; cbn [ssum sin]; lia. Qed.
Definition SInv (s : sstate) : Prop := ssum (sthreads s) = if sflag s then 1 else 0.
Lemma SInv_steps n s : ssteps (sinit n) s -> SInv s.
Proof.
  intros H. remember (sinit n) as i eqn:E. induction H; subst.
  - unfold SInv, sinit. cbn [sthreads sflag]. induction n; cbn; auto.
  - specialize (IHssteps eq_refl). destruct H0 as [f pre p post f' p' T]. unfold SInv in *. cbn [sthreads sflag] in *.
    rewrite ssum_mid in *. pose proof (ssum_nn pre). pose proof (ssum_nn post).
    destruct T; cbn [sin] in *; try destruct f; lia.
Qed.
Lemma ssum_two l i j : i <> j -> nth_error l i = Some SIn -> nth_error l j = Some SIn -> 2 <= ssum l.
Proof.
  assert (one : forall l i, nth_error l i = Some SIn -> 1 <= ssum l).
  { clear. induction l as [|x l IH]; intros [|i] E; try discriminate; cbn [nth_error ssum] in *.
    - injection E as ->. pose proof (ssum_nn l). cbn [ssum sin]. lia.
    - specialize (IH i E). destruct x; cbn [ssum sin]; lia. }
  revert i j. induction l as [|x l IH]; intros i j N A B; [destruct i; discriminate|].
  destruct i as [|i], j as [|j]; cbn [nth_error ssum] in *; try congruence.
  - injection A as ->. specialize (one l j B). cbn [ssum sin]. lia.
  - injection B as ->. specialize (one l i A). cbn [ssum sin]. lia.
  - assert (i <> j) by congruence. specialize (IH i j H A B). destruct x; cbn [ssum sin]; lia.
Qed.
Lemma spin_exclusion n s i j : ssteps (sinit n) s -> i <> j ->
  nth_error (sthreads s) i = Some SIn -> nth_error (sthreads s) j = Some SIn -> False.
Proof.
  intros R N A B. apply SInv_steps in R. unfold SInv in R. pose proof (ssum_two _ _ _ N A B).
  destruct (sflag s); lia.
Qed.
Lemma ssteps_one s t : sstep s t -> ssteps s t. Proof. intros H. eapply SSteps_next; [constructor|exact H]. Qed.
Lemma spin_progress n s pre post : ssteps (sinit n) s -> sthreads s = pre ++ SSpin :: post ->
  (forall q, In q (sthreads s) -> q <> SIn) ->
  ssteps s {| sflag := true; sthreads := pre ++ SIn :: post |}.
Proof.
  intros R E H. apply SInv_steps in R. unfold SInv in R.
  assert (ssum (sthreads s) = 0) as S0.
  { clear - H. induction (sthreads s) as [|p l IH]; [reflexivity|]. cbn [ssum]. rewrite IH by (intros; apply H; right; auto).
    assert (p <> SIn) by (apply H; left; reflexivity). destruct p; cbn; congruence. }
  destruct s as [f ts]. cbn [sflag sthreads] in *. subst ts. destruct f; [lia|].
  apply ssteps_one. constructor. constructor.
Qed.
