From Verif Require Import Bytes Outcome GapModel GapSpec.
From Coq Require Import ZifyBool ZifyNat ZifyN Permutation.
Local Open Scope N_scope.

Ltac iflia := repeat match goal with |- context [if ?c then _ else _] => destruct c eqn:? end; lia.

Lemma cov_app a b x : cov (a ++ b) x = (cov a x + cov b x)%nat.
Proof. induction a as [|y a IH]; cbn [app cov]; [reflexivity|rewrite IH; lia]. Qed.
Lemma covers_spec x b : covers x b = true <-> fst x <= b < fst x + snd x.
Proof. unfold covers. lia. Qed.
Lemma covers_false x b : covers x b = false <-> ~ (fst x <= b < fst x + snd x).
Proof. unfold covers. lia. Qed.
Lemma cov_in l x b : In x l -> covers x b = true -> (1 <= cov l b)%nat.
Proof.
  induction l as [|y l IH]; intros H C; [destruct H|]. destruct H as [->|H]; cbn [cov]; [rewrite C; lia|]. specialize (IH H C). lia.
Qed.
Lemma cov_pos l b : (1 <= cov l b)%nat -> exists x, In x l /\ covers x b = true.
Proof.
  induction l as [|y l IH]; cbn [cov]; [lia|]. destruct (covers y b) eqn:E.
  - intros _. exists y. split; [left; reflexivity|exact E].
  - intros H. destruct IH as (x & Hx & C); [lia|]. exists x. split; [right; exact Hx|exact C].
Qed.
Lemma cov_split l1 x l2 b : cov (l1 ++ x :: l2) b = ((if covers x b then 1 else 0) + cov (l1 ++ l2) b)%nat.
Proof. rewrite !cov_app. cbn [cov]. lia. Qed.
Lemma cov_perm l l' b : Permutation l l' -> cov l b = cov l' b.
Proof. induction 1; cbn [cov]; lia. Qed.

Lemma partition_le1 lo hi l b : partition lo hi l -> (cov l b <= 1)%nat.
Proof. intros H. rewrite H. destruct (_ && _); lia. Qed.

Lemma partition_disjoint lo hi l i j x y : partition lo hi l -> i <> j ->
  nth_error l i = Some x -> nth_error l j = Some y -> disjoint x y.
Proof.
  intros P N A B b Cx Cy. pose proof (partition_le1 _ _ _ b P) as L. clear P.
  revert i j N A B L. induction l as [|z l IH]; intros i j N A B L; [destruct i; discriminate|].
  destruct i as [|i], j as [|j]; cbn [nth_error cov] in *; try congruence.
  - injection A as ->. apply nth_error_In in B. pose proof (cov_in _ _ _ B Cy). rewrite Cx in L. lia.
  - injection B as ->. apply nth_error_In in A. pose proof (cov_in _ _ _ A Cx). rewrite Cy in L. lia.
  - apply (IH i j); auto; lia.
Qed.
Lemma partition_within lo hi l x : partition lo hi l -> In x l -> 0 < snd x -> lo <= fst x /\ fst x + snd x <= hi.
Proof.
  intros P H S. 
  assert (C1 : covers x (fst x) = true) by (apply covers_spec; lia).
  assert (C2 : covers x (fst x + snd x - 1) = true) by (apply covers_spec; lia).
  pose proof (cov_in _ _ _ H C1) as A. pose proof (cov_in _ _ _ H C2) as B. rewrite P in A, B.
  destruct ((lo <=? fst x) && (fst x <? hi)) eqn:E1; [|lia].
  destruct ((lo <=? fst x + snd x - 1) && (fst x + snd x - 1 <? hi)) eqn:E2; lia.
Qed.

(** two ranges of a partition, one free and one held, do not meet *)
Lemma partition_apart lo hi a b x y : partition lo hi (a ++ b) -> In x a -> In y b -> disjoint x y.
Proof.
  intros P Ha Hb p Cx Cy. pose proof (partition_le1 _ _ _ p P) as L. rewrite cov_app in L.
  pose proof (cov_in _ _ _ Ha Cx). pose proof (cov_in _ _ _ Hb Cy). lia.
Qed.
Lemma disjoint_apart x y : disjoint x y -> 0 < snd x -> 0 < snd y -> fst x + snd x <= fst y \/ fst y + snd y <= fst x.
Proof.
  intros D Hx Hy. destruct (N.le_gt_cases (fst x + snd x) (fst y)); [auto|].
  destruct (N.le_gt_cases (fst y + snd y) (fst x)); [auto|]. exfalso.
  apply (D (N.max (fst x) (fst y))); apply covers_spec; lia.
Qed.

(** separated lists *)
Lemma separated_tl x l : separated (x :: l) -> separated l.
Proof. destruct l as [|y l]; cbn; tauto. Qed.
Lemma separated_all x l : separated (x :: l) -> nonempty (x :: l) -> forall y, In y l -> fst x + snd x < fst y.
Proof.
  revert x. induction l as [|z l IH]; intros x S N y H; [destruct H|].
  cbn [separated] in S. destruct S as [A S]. inversion N as [|? ? N1 N2]; subst. destruct H as [->|H]; [exact A|].
  specialize (IH z S N2 y H). inversion N2; subst. lia.
Qed.
Lemma separated_intro x l : (forall y, In y l -> fst x + snd x < fst y) -> separated l -> separated (x :: l).
Proof. destruct l as [|y l]; intros H S; [exact I|]. cbn. split; [apply H; left; reflexivity|exact S]. Qed.

(** find_gap *)
Lemma find_gap_spec n g x g' : find_gap n g = Some (x, g') ->
  exists l1 s l2, g = l1 ++ (x, s) :: l2 /\ n <= s /\ Forall (fun y => snd y < n) l1 /\
    g' = l1 ++ (if s =? n then l2 else (x + n, s - n) :: l2).
Proof.
  revert x g'. induction g as [|[o s] g IH]; intros x g' H; [discriminate|]. cbn [find_gap] in H.
  destruct (N.leb_spec n s).
  - injection H as <- <-. exists [], s, g. repeat split; auto.
  - destruct (find_gap n g) as [[y r']|] eqn:E; [|discriminate]. injection H as <- <-.
    destruct (IH _ _ eq_refl) as (l1 & s' & l2 & -> & Hs & F & ->). exists ((o, s) :: l1), s', l2.
    repeat split; auto; constructor; auto.
Qed.
Lemma find_gap_None n g : find_gap n g = None -> Forall (fun y => snd y < n) g.
Proof.
  induction g as [|[o s] g IH]; intros H; [constructor|]. cbn [find_gap] in H.
  destruct (N.leb_spec n s); [discriminate|]. destruct (find_gap n g) as [[? ?]|]; [discriminate|]. constructor; auto.
Qed.

Lemma find_gap_cov n g x g' b : find_gap n g = Some (x, g') ->
  ((if covers (x, n) b then 1 else 0) + cov g' b = cov g b)%nat.
Proof.
  intros H. apply find_gap_spec in H as (l1 & s & l2 & -> & Hs & _ & ->).
  rewrite cov_split, !cov_app. destruct (N.eqb_spec s n) as [->|E]; [lia|]. cbn [cov]. unfold covers. cbn [fst snd]. iflia.
Qed.
Lemma separated_app_sub l1 x y l2 : fst x <= fst y -> fst y + snd y <= fst x + snd x ->
  separated (l1 ++ x :: l2) -> separated (l1 ++ y :: l2).
Proof.
  intros A B. induction l1 as [|z l1 IH]; cbn [app].
  - destruct l2 as [|w l2]; [auto|]. cbn. intros [H1 H2]. split; [lia|exact H2].
  - destruct l1 as [|z' l1]; cbn [app] in *; intros [H1 H2]; (split; [lia|apply IH; exact H2]).
Qed.
Lemma separated_remove l1 x l2 : nonempty (l1 ++ x :: l2) -> separated (l1 ++ x :: l2) -> separated (l1 ++ l2).
Proof.
  induction l1 as [|z l1 IH]; cbn [app]; intros N S; [eapply separated_tl; exact S|].
  apply separated_intro.
  - intros y Hy. eapply separated_all; [exact S|exact N|]. apply in_app_iff in Hy as [Hy|Hy]; apply in_app_iff; [left|right; right]; assumption.
  - apply IH; [inversion N; assumption|eapply separated_tl; exact S].
Qed.
Lemma find_gap_separated n g x g' : 0 < n -> nonempty g -> separated g -> find_gap n g = Some (x, g') ->
  separated g' /\ nonempty g'.
Proof.
  intros Hn N S H. apply find_gap_spec in H as (l1 & s & l2 & -> & Hs & _ & ->).
  destruct (N.eqb_spec s n) as [->|E].
  - split; [eapply separated_remove; eassumption|]. unfold nonempty in *. apply Forall_app in N as [N1 N2].
    inversion N2; subst. apply Forall_app. auto.
  - split.
    + eapply separated_app_sub; [| |exact S]; cbn; lia.
    + unfold nonempty in *. apply Forall_app in N as [N1 N2]. inversion N2; subst. apply Forall_app. split; auto.
      constructor; auto. cbn in *. lia.
Qed.

(** remove_gap *)
Lemma insert_perm x g : Permutation (x :: g) (insert_gap x g).
Proof.
  induction g as [|y g IH]; cbn [insert_gap]; [reflexivity|]. destruct (fst x <? fst y); [reflexivity|].
  rewrite perm_swap. constructor. exact IH.
Qed.
Lemma clean_cov r : forall c b, cov (clean_from c r) b = cov (c :: r) b.
Proof.
  induction r as [|y r IH]; intros c b; [reflexivity|]. cbn [clean_from].
  destruct (N.eqb_spec (fst c + snd c) (fst y)) as [E|E].
  - rewrite IH. cbn [cov]. unfold covers. cbn [fst snd]. iflia.
  - cbn [cov]. rewrite IH. reflexivity.
Qed.

(** ascending, possibly touching *)
Fixpoint ascending (l : list range) : Prop :=
  match l with x :: ((y :: _) as r) => fst x + snd x <= fst y /\ ascending r | _ => True end.
Lemma separated_ascending l : separated l -> ascending l.
Proof.
  induction l as [|x l IH]; [auto|]. destruct l as [|y l]; [auto|]. intros [A B]. split; [lia|apply IH; exact B].
Qed.

Lemma clean_separated r : forall c, nonempty (c :: r) -> ascending (c :: r) ->
  separated (clean_from c r) /\ nonempty (clean_from c r) /\
  (forall x, In x (clean_from c r) -> fst c <= fst x) /\
  last_end (clean_from c r) = last_end (c :: r) /\ clean_from c r <> [].
Proof.
  induction r as [|y r IH]; intros c N A; [cbn; repeat split; auto; [intros x [->|[]]; lia|discriminate]|].
  cbn [clean_from]. cbn [ascending] in A. destruct A as [A1 A2].
  inversion N as [|? ? Nc N']; subst. inversion N' as [|? ? Ny N'']; subst.
  destruct (N.eqb_spec (fst c + snd c) (fst y)) as [E|E].
  - destruct (IH (fst c, snd c + snd y)) as (S & NN & L & LE & NE).
    + constructor; [cbn; lia|exact N''].
    + destruct r as [|z r]; [exact I|]. cbn [ascending fst snd] in *. destruct A2. split; [lia|auto].
    + repeat split; auto. rewrite LE. destruct r as [|z r]; [|reflexivity]. unfold last_end. cbn. lia.
  - destruct (IH y N' A2) as (S & NN & L & LE & NE).
    split; [|split; [|split; [|split]]].
    + apply separated_intro; [|exact S]. intros x Hx. specialize (L x Hx). lia.
    + constructor; auto.
    + intros x [->|Hx]; [lia|]. specialize (L x Hx). lia.
    + transitivity (last_end (clean_from y r)).
      * unfold last_end. destruct (clean_from y r); [contradiction|reflexivity].
      * rewrite LE. reflexivity.
    + discriminate.
Qed.

Lemma clean_id r : forall c, separated (c :: r) -> clean_from c r = c :: r.
Proof.
  induction r as [|y r IH]; intros c S; [reflexivity|]. cbn [clean_from]. cbn [separated] in S. destruct S as [A S].
  destruct (N.eqb_spec (fst c + snd c) (fst y)); [lia|]. rewrite IH by exact S. reflexivity.
Qed.

Lemma insert_ascending x g : 0 < snd x -> nonempty g -> separated g -> (forall y, In y g -> disjoint x y) ->
  ascending (insert_gap x g).
Proof.
  intros Hx. induction g as [|y g IH]; intros N S D; [exact I|]. cbn [insert_gap].
  inversion N as [|? ? Ny N']; subst.
  destruct (disjoint_apart x y (D y (or_introl eq_refl)) Hx Ny) as [A|A].
  - replace (fst x <? fst y) with true by lia. split; [lia|]. apply separated_ascending. exact S.
  - replace (fst x <? fst y) with false by lia.
    assert (IH' : ascending (insert_gap x g)).
    { apply IH; auto. eapply separated_tl; exact S. intros z Hz. apply D. right. exact Hz. }
    destruct g as [|z g].
    + cbn. split; [exact A|exact I].
    + cbn [insert_gap] in *. destruct (fst x <? fst z).
      * split; [exact A|exact IH'].
      * split; [|exact IH']. destruct S as [S1 S2]. lia.
Qed.

Lemma last_end_app l x : last_end (l ++ [x]) = fst x + snd x.
Proof. unfold last_end. rewrite last_last. reflexivity. Qed.

Lemma insert_last_end x g : g <> [] -> nonempty g -> separated g -> fst x + snd x <= last_end g -> 0 < snd x ->
  (forall y, In y g -> disjoint x y) -> last_end (insert_gap x g) = last_end g.
Proof.
  intros NE. induction g as [|y g IH]; [contradiction|]. intros N S L Hx D. cbn [insert_gap].
  destruct (N.ltb_spec (fst x) (fst y)) as [C|C]; [reflexivity|].
  inversion N as [|? ? Ny N']; subst.
  destruct g as [|z g].
  - exfalso. unfold last_end in L. cbn [last] in L.
    destruct (disjoint_apart x y (D y (or_introl eq_refl)) Hx Ny); lia.
  - transitivity (last_end (insert_gap x (z :: g))).
    + unfold last_end. cbn [insert_gap]. destruct (fst x <? fst z); reflexivity.
    + rewrite IH; auto; try discriminate.
      * eapply separated_tl; exact S.
      * intros w Hw. apply D. right. exact Hw.
Qed.

Lemma nonempty_perm l l' : Permutation l l' -> nonempty l -> nonempty l'.
Proof. intros P H. unfold nonempty in *. rewrite <- P. exact H. Qed.

Lemma remove_gap_spec x g : 0 < snd x -> nonempty g -> separated g -> (forall y, In y g -> disjoint x y) ->
  exists g', remove_gap x g = Ok g' /\ separated g' /\ nonempty g' /\ g' <> [] /\
    (forall b, cov g' b = ((if covers x b then 1 else 0) + cov g b)%nat) /\
    (g <> [] -> fst x + snd x <= last_end g -> last_end g' = last_end g).
Proof.
  intros Hx N S D. unfold remove_gap, clean_gaps.
  pose proof (insert_ascending x g Hx N S D) as A. pose proof (insert_perm x g) as P.
  assert (NI : nonempty (insert_gap x g)) by (eapply nonempty_perm; [exact P|constructor; auto]).
  destruct (insert_gap x g) as [|c r] eqn:E.
  - exfalso. apply Permutation_sym, Permutation_nil in P. discriminate.
  - destruct (clean_separated r c NI A) as (S' & N' & _ & L & NE). eexists. split; [reflexivity|].
    repeat split; auto.
    + intros b. rewrite clean_cov, <- E, <- (cov_perm _ _ b (insert_perm x g)). reflexivity.
    + intros Hg Hle. rewrite L, <- E. apply insert_last_end; auto.
Qed.

(** the client *)
Definition ginv (lo hi : N) (s : gstate) : Prop :=
  partition lo hi (held s ++ gaps s) /\ separated (gaps s) /\ nonempty (gaps s) /\ nonempty (held s).

Lemma ginv_init lo hi : lo < hi -> ginv lo hi {| held := []; gaps := gt_init lo hi |}.
Proof.
  intros H. unfold ginv, gt_init. cbn [held gaps app]. repeat split; try constructor; try (cbn; lia); try constructor.
  intros b. cbn [cov]. unfold covers. cbn [fst snd]. iflia.
Qed.

Lemma drop_nth_split {A} (l : list A) i x : nth_error l i = Some x ->
  exists l1 l2, l = l1 ++ x :: l2 /\ drop_nth i l = l1 ++ l2 /\ length l1 = i.
Proof.
  revert i. induction l as [|y l IH]; intros [|i] H; try discriminate; cbn in *.
  - injection H as ->. exists [], l. auto.
  - destruct (IH i H) as (l1 & l2 & -> & -> & <-). exists (y :: l1), l2. auto.
Qed.

Lemma ginv_step lo hi s op : positive op -> ginv lo hi s -> exists t, gstep s op = Ok t /\ ginv lo hi t.
Proof.
  intros Hp (P & S & N & Nh). destruct op as [n|i]; cbn [gstep positive] in *.
  - destruct (find_gap n (gaps s)) as [[o g]|] eqn:E.
    + eexists. split; [reflexivity|]. unfold ginv. cbn [held gaps].
      destruct (find_gap_separated n _ _ _ Hp N S E). repeat split; auto.
      * intros b. pose proof (find_gap_cov _ _ _ _ b E) as C. rewrite <- P, !cov_app. cbn [cov]. lia.
      * constructor; auto.
    + exists s. split; [reflexivity|]. repeat split; auto.
  - destruct (nth_error (held s) i) as [x|] eqn:E.
    + destruct (drop_nth_split _ _ _ E) as (l1 & l2 & EH & ED & _).
      assert (Hx : 0 < snd x). { unfold nonempty in Nh. rewrite Forall_forall in Nh. apply Nh. rewrite EH. apply in_elt. }
      destruct (remove_gap_spec x (gaps s) Hx N S) as (g' & R & S' & N' & _ & C & _).
      { intros y Hy. eapply partition_apart; [exact P| |exact Hy]. rewrite EH. apply in_elt. }
      rewrite R. cbn [rbind]. eexists. split; [reflexivity|]. unfold ginv. cbn [held gaps]. repeat split; auto.
      * intros b. rewrite <- P, ED, EH, !cov_app, C. cbn [cov]. lia.
      * rewrite ED. unfold nonempty in *. rewrite EH in Nh. apply Forall_app in Nh as [A B]. inversion B; subst. apply Forall_app. auto.
    + exists s. split; [reflexivity|]. repeat split; auto.
Qed.

Lemma grun_inv lo hi ops : forall s, Forall positive ops -> ginv lo hi s -> exists t, grun s ops = Ok t /\ ginv lo hi t.
Proof.
  induction ops as [|op ops IH]; intros s F I; [exists s; auto|]. inversion F; subst.
  destruct (ginv_step lo hi s op H1 I) as (t & E & It). cbn [grun]. rewrite E. cbn [rbind]. apply IH; auto.
Qed.

Lemma grun_partition lo hi ops : lo < hi -> Forall positive ops ->
  exists t, grun {| held := []; gaps := gt_init lo hi |} ops = Ok t /\
    partition lo hi (held t ++ gaps t) /\
    (forall i j x y, i <> j -> nth_error (held t) i = Some x -> nth_error (held t) j = Some y -> disjoint x y) /\
    (forall x, In x (held t) -> lo <= fst x /\ fst x + snd x <= hi).
Proof.
  intros H F. destruct (grun_inv lo hi ops _ F (ginv_init lo hi H)) as (t & E & P & S & N & Nh).
  exists t. split; [exact E|]. split; [exact P|]. split.
  - intros i j x y Nij A B. eapply (partition_disjoint lo hi (held t ++ gaps t) i j); auto.
    + rewrite nth_error_app1; [exact A|]. apply nth_error_Some. congruence.
    + rewrite nth_error_app1; [exact B|]. apply nth_error_Some. congruence.
  - intros x Hx. eapply partition_within; [exact P|apply in_or_app; left; exact Hx|].
    unfold nonempty in Nh. rewrite Forall_forall in Nh. apply Nh. exact Hx.
Qed.

(** a free run lies inside one gap *)
Lemma free_in_gap lo hi h g b : partition lo hi (h ++ g) -> is_free lo hi h b -> exists x, In x g /\ covers x b = true.
Proof.
  intros P [[A B] C]. apply cov_pos. specialize (P b). rewrite cov_app, C in P.
  replace ((lo <=? b) && (b <? hi)) with true in P by lia. lia.
Qed.

Lemma separated_next g x b : separated g -> nonempty g -> In x g -> covers x b = true -> fst x + snd x = b + 1 ->
  forall y, In y g -> covers y (b + 1) = true -> False.
Proof.
  intros S N Hx Cx E y Hy Cy. rewrite covers_spec in *.
  induction g as [|z g IH]; [destruct Hx|].
  destruct Hx as [->|Hx], Hy as [->|Hy].
  - lia.
  - pose proof (separated_all _ _ S N y Hy). lia.
  - pose proof (separated_all _ _ S N x Hx). lia.
  - apply IH; auto; [eapply separated_tl; exact S|inversion N; assumption].
Qed.

Lemma run_in_gap lo hi h g o : partition lo hi (h ++ g) -> separated g -> nonempty g -> forall n : nat, (0 < n)%nat ->
  (forall b, o <= b < o + N.of_nat n -> is_free lo hi h b) ->
  exists x, In x g /\ fst x <= o /\ o + N.of_nat n <= fst x + snd x.
Proof.
  intros P Sp Np. induction n as [|n IH]; intros Hn F; [lia|].
  destruct n as [|n].
  - destruct (free_in_gap lo hi h g o P) as (x & Hx & C); [apply F; lia|]. apply covers_spec in C. exists x. split; [exact Hx|lia].
  - destruct IH as (x & Hx & A & B); [lia|intros b Hb; apply F; lia|].
    exists x. split; [exact Hx|]. split; [exact A|].
    destruct (N.lt_ge_cases (fst x + snd x) (o + N.of_nat (S (S n)))) as [L|L]; [|exact L]. exfalso.
    assert (EQ : fst x + snd x = (o + N.of_nat n) + 1) by lia.
    destruct (free_in_gap lo hi h g (o + N.of_nat n + 1) P) as (y & Hy & C); [apply F; lia|].
    eapply (separated_next g x (o + N.of_nat n)); eauto. apply covers_spec. lia.
Qed.

Lemma alloc_fails lo hi ops t n : lo < hi -> Forall positive ops ->
  grun {| held := []; gaps := gt_init lo hi |} ops = Ok t -> 0 < n ->
  (find_gap n (gaps t) = None <-> ~ exists o, forall b, o <= b < o + n -> is_free lo hi (held t) b).
Proof.
  intros H F E Hn. destruct (grun_inv lo hi ops _ F (ginv_init lo hi H)) as (t' & E' & P & S & N & Nh).
  rewrite E in E'. injection E' as <-. split.
  - intros FN (o & R). apply find_gap_None in FN.
    destruct (run_in_gap lo hi (held t) (gaps t) o P S N (N.to_nat n)) as (x & Hx & A & B); [lia| |].
    + intros b Hb. apply R. lia.
    + rewrite Forall_forall in FN. specialize (FN x Hx). cbn in FN. lia.
  - intros NE. destruct (find_gap n (gaps t)) as [[o g]|] eqn:FG; [|reflexivity]. exfalso. apply NE.
    exists o. intros b Hb. apply find_gap_spec in FG as (l1 & s & l2 & EG & Hs & _ & _).
    assert (C : covers (o, s) b = true) by (apply covers_spec; cbn; lia).
    assert (Hin : In (o, s) (gaps t)) by (rewrite EG; apply in_elt).
    pose proof (cov_in _ _ _ Hin C) as C1. pose proof (P b) as PB. rewrite cov_app in PB.
    unfold is_free. destruct ((lo <=? b) && (b <? hi)) eqn:X; lia.
Qed.

Lemma all_freed lo hi ops t : lo < hi -> Forall positive ops ->
  grun {| held := []; gaps := gt_init lo hi |} ops = Ok t -> held t = [] -> gaps t = gt_init lo hi.
Proof.
  intros H F E HE. destruct (grun_inv lo hi ops _ F (ginv_init lo hi H)) as (t' & E' & P & S & N & _).
  rewrite E in E'. injection E' as <-. rewrite HE in P. cbn [app] in P.
  destruct (run_in_gap lo hi [] (gaps t) lo P S N (N.to_nat (hi - lo))) as (x & Hx & A & B); [lia| |].
  { intros b Hb. split; [lia|reflexivity]. }
  assert (W : forall y, In y (gaps t) -> lo <= fst y /\ fst y + snd y <= hi).
  { intros y Hy. apply (partition_within lo hi (gaps t)); auto. unfold nonempty in N. rewrite Forall_forall in N. auto. }
  pose proof (W x Hx). assert (x = (lo, hi - lo)) as -> by (destruct x as [a c]; cbn in *; f_equal; lia).
  unfold gt_init. apply in_split in Hx as (l1 & l2 & EG). rewrite EG in *.
  assert (l1 = []) as ->.
  { destruct l1 as [|y l1]; [reflexivity|]. exfalso. cbn [app] in *.
    pose proof (separated_all y _ S N (lo, hi - lo) ltac:(apply in_elt)) as X. cbn in X.
    destruct (W y (or_introl eq_refl)). inversion N; subst. lia. }
  cbn [app] in *. destruct l2 as [|y l2]; [reflexivity|]. exfalso.
  pose proof (separated_all _ _ S N y (or_introl eq_refl)) as X. cbn in X.
  destruct (W y (or_intror (or_introl eq_refl))). lia.
Qed.

(** a release build agrees with the checked one as long as every allocation finds space *)
Lemma fits_found n g : (exists x, In x g /\ n <= snd x) -> find_gap n g <> None.
Proof.
  induction g as [|[o s] g IH]; intros (x & I & L); [destruct I|]. cbn [find_gap]. destruct (N.leb_spec n s) as [E|E]; [discriminate|].
  destruct I as [<-|I]; [cbn [snd] in L; lia|].
  destruct (find_gap n g) as [[a b]|] eqn:F; [discriminate|]. elim (IH (ex_intro _ x (conj I L)) eq_refl).
Qed.
Lemma ndebug_same ops : forall s, always_fits s ops -> grun_ndebug s ops = grun s ops.
Proof.
  induction ops as [|op ops IH]; intros s F; [reflexivity|]. destruct F as [F1 F2].
  destruct op as [n|i].
  - apply fits_found in F1. cbn [grun_ndebug grun gstep] in *. unfold find_gap_ndebug. destruct (find_gap n (gaps s)) as [[o g]|]; [|congruence].
    cbn [rbind]. apply IH. exact F2.
  - cbn [grun_ndebug grun]. destruct (gstep s (Free i)) as [t|e]; [|reflexivity]. cbn [rbind]. apply IH. exact F2.
Qed.
