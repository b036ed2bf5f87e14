From Coq Require Import QArith Qpower Qfield.
From Verif Require Import Bytes Outcome MetaModel MetaProofs FixedModel FixedSpec.
From Coq Require Import ZifyBool ZifyNat ZifyN.
Ltac Zify.zify_post_hook ::= Z.div_mod_to_equations.
Local Open Scope Z_scope.

Lemma inr_spec r v : inr r v = true <-> rmin r <= v <= rmax r.
Proof. unfold inr. lia. Qed.
Lemma rmax_pos r : 10 < rmax r.
Proof. destruct r; unfold rmax, bits; reflexivity. Qed.
Lemma rmin_max r : rmin r = - rmax r - 1.
Proof. unfold rmin, rmax. lia. Qed.
Opaque rmin rmax.

Lemma chk_ok r v : inr r v = true -> chk r v = Ok v. Proof. unfold chk. intros ->. reflexivity. Qed.
Lemma chk_bad r v : inr r v = false -> chk r v = Err UB. Proof. unfold chk. intros ->. reflexivity. Qed.
Lemma chk_inv r v w : chk r v = Ok w -> w = v /\ inr r v = true.
Proof. unfold chk. destruct (inr r v); [intros E; injection E as <-; auto|discriminate]. Qed.

Lemma big r a b : 1 <= a -> a <= b -> inr r a = false -> inr r b = false.
Proof.
  intros. apply not_true_iff_false. rewrite inr_spec. apply not_true_iff_false in H1. rewrite inr_spec in H1.
  pose proof (rmin_max r). pose proof (rmax_pos r). lia.
Qed.

Lemma ipow_loop_spec r : forall fuel e extra square, 1 <= e -> e < 2 ^ Z.of_nat fuel -> 1 <= extra -> 2 <= square ->
  ipow_loop r fuel e extra square = chk r (extra * square ^ e).
Proof.
  induction fuel as [|f IH]; intros e x sq He Hf Hx Hs; [cbn in Hf; lia|].
  cbn [ipow_loop]. destruct (Z.ltb_spec 1 e) as [L|L].
  - assert (Hf' : e / 2 < 2 ^ Z.of_nat f).
    { rewrite Nat2Z.inj_succ, Z.pow_succ_r in Hf by lia. lia. }
    assert (Hp1 : 1 <= (sq * sq) ^ (e / 2)) by (pose proof (Z.pow_pos_nonneg (sq * sq) (e / 2)); nia).
    assert (Hs2 : sq * sq <= (sq * sq) ^ (e / 2)).
    { rewrite <- (Z.pow_1_r (sq * sq)) at 1. apply Z.pow_le_mono_r; nia. }
    pose proof (rmax_pos r). pose proof (rmin_max r).
    destruct (Z.odd e) eqn:O.
    + assert (E : e = 2 * (e / 2) + 1) by (rewrite Zodd_mod in O; apply Zeq_bool_eq in O; lia).
      assert (PE : x * sq ^ e = (x * sq) * (sq * sq) ^ (e / 2)).
      { rewrite E at 1. rewrite Z.pow_add_r by lia. rewrite Z.pow_mul_r by lia. rewrite Z.pow_2_r. lia. }
      rewrite PE. destruct (inr r (x * sq)) eqn:I1.
      * rewrite (chk_ok _ _ I1). cbn [rbind fst snd].
        replace (Z.quot (e - 1) 2) with (e / 2) by (clear - E L; rewrite Z.quot_div_nonneg by lia; rewrite E at 2; replace (2 * (e / 2) + 1 - 1) with ((e / 2) * 2) by lia; rewrite Z.div_mul by lia; reflexivity).
        destruct (inr r (sq * sq)) eqn:I2.
        -- rewrite (chk_ok _ _ I2). cbn [rbind]. apply IH; nia.
        -- rewrite (chk_bad _ _ I2). cbn [rbind]. rewrite chk_bad; [reflexivity|].
           apply (big r (sq * sq)); [nia| |exact I2].
           apply Z.le_trans with ((sq * sq) ^ (e / 2)); [lia|]. assert (1 <= x * sq) by nia. nia.
      * rewrite (chk_bad _ _ I1). cbn [rbind]. rewrite chk_bad; [reflexivity|].
        apply (big r (x * sq)); [nia| |exact I1]. assert (1 <= x * sq) by nia. nia.
    + assert (E : e = 2 * (e / 2)) by (rewrite <- Z.negb_even in O; apply negb_false_iff, Zeven_bool_iff, Zeven_div2 in O; rewrite Z.div2_div in O; lia).
      assert (PE : x * sq ^ e = x * (sq * sq) ^ (e / 2)).
      { rewrite E at 1. rewrite Z.pow_mul_r by lia. rewrite Z.pow_2_r. reflexivity. }
      rewrite PE. cbn [rbind fst snd]. rewrite Z.quot_div_nonneg by lia.
      destruct (inr r (sq * sq)) eqn:I2.
      * rewrite (chk_ok _ _ I2). cbn [rbind]. apply IH; nia.
      * rewrite (chk_bad _ _ I2). cbn [rbind]. rewrite chk_bad; [reflexivity|].
        apply (big r (sq * sq)); [nia| |exact I2].
        apply Z.le_trans with ((sq * sq) ^ (e / 2)); [lia|]. nia.
  - replace e with 1 by lia. rewrite Z.pow_1_r. f_equal. lia.
Qed.

Lemma ipow_spec r e : 0 <= e -> ipow r e = chk r (10 ^ e).
Proof.
  intros H. unfold ipow. replace (e <? 0) with false by lia.
  destruct (Z.eqb_spec e 0) as [->|Hn].
  - rewrite Z.pow_0_r, chk_ok; [reflexivity|]. apply inr_spec. pose proof (rmax_pos r). pose proof (rmin_max r). lia.
  - rewrite ipow_loop_spec; try lia; [rewrite Z.mul_1_l; reflexivity|].
    rewrite Nat2Z.inj_succ, Z2Nat.id by apply Z.log2_nonneg. apply Z.log2_spec. lia.
Qed.

Lemma pow10_bound r d : 0 <= d -> 2 ^ 8 <= d -> rmax r < 10 ^ d.
Proof.
  intros _ H. apply Z.lt_le_trans with (10 ^ (2 ^ 8)).
  - destruct r; vm_compute; reflexivity.
  - apply Z.pow_le_mono_r; lia.
Qed.

(** rescaled to a smaller scale *)
Lemma rescaled_spec r x s : decimal r x -> inr I32 s = true -> s <= scale x ->
  (alignable r x s -> rescaled r x s = Ok {| value := value x * 10 ^ (scale x - s); scale := s |}) /\
  (~ alignable r x s -> rescaled r x s = Err UB).
Proof.
  intros [Hv Hs] Hs' Hle. unfold rescaled, alignable.
  destruct (Z.eqb_spec s (scale x)) as [E|E].
  - subst s. split; [|tauto]. intros _. rewrite Z.sub_diag, Z.pow_0_r, Z.mul_1_r. destruct x; reflexivity.
  - assert (0 < scale x - s) by lia.
    unfold shift. replace (s - scale x =? 0) with false by lia.
    destruct (inr I32 (s - scale x)) eqn:I1.
    + rewrite (chk_ok _ _ I1). cbn [rbind].
      replace (s - scale x =? 0) with false by lia. replace (0 <? s - scale x) with false by lia.
      replace (- (s - scale x)) with (scale x - s) by lia.
      destruct (inr I32 (scale x - s)) eqn:I2.
      * rewrite (chk_ok _ _ I2). cbn [rbind]. rewrite ipow_spec by lia.
        destruct (inr r (10 ^ (scale x - s))) eqn:I3.
        -- rewrite (chk_ok _ _ I3). cbn [rbind]. destruct (inr r (value x * 10 ^ (scale x - s))) eqn:I4.
           ++ rewrite (chk_ok _ _ I4). cbn [rbind]. split; [reflexivity|]. intros N. exfalso. apply N. right.
              apply inr_spec in I3. split; [lia|reflexivity].
           ++ rewrite (chk_bad _ _ I4). cbn [rbind]. split; [|reflexivity]. intros [X|[_ X]]; [lia|congruence].
        -- rewrite (chk_bad _ _ I3). cbn [rbind]. split; [|reflexivity]. intros [X|[X _]]; [lia|].
           apply not_true_iff_false in I3. rewrite inr_spec in I3. exfalso. apply I3.
           pose proof (Z.pow_pos_nonneg 10 (scale x - s)). pose proof (rmin_max r). pose proof (rmax_pos r). lia.
      * rewrite (chk_bad _ _ I2). cbn [rbind]. split; [|reflexivity]. intros [X|[X _]]; [lia|].
        apply not_true_iff_false in I2. rewrite inr_spec in I2. exfalso.
        pose proof (pow10_bound r (scale x - s)). 
        assert (2 ^ 8 <= scale x - s). { pose proof (rmin_max I32). assert (rmax I32 = 2147483647) by reflexivity. lia. }
        lia.
    + rewrite (chk_bad _ _ I1). cbn [rbind]. split; [|reflexivity]. intros [X|[X _]]; [lia|].
      apply not_true_iff_false in I1. rewrite inr_spec in I1. exfalso.
      pose proof (pow10_bound r (scale x - s)).
      assert (2 ^ 8 <= scale x - s). { pose proof (rmin_max I32). assert (rmax I32 = 2147483647) by reflexivity. lia. }
      lia.
Qed.


Lemma alignable_dec r x s : alignable r x s \/ ~ alignable r x s.
Proof.
  unfold alignable. destruct (Z.eq_dec s (scale x)); [auto|].
  destruct (Z_le_dec (10 ^ (scale x - s)) (rmax r)); [|right; tauto].
  destruct (inr r (value x * 10 ^ (scale x - s))); [auto|]. right. intros [X|[_ X]]; [contradiction|discriminate].
Qed.

Lemma alignable_inr r x s : decimal r x -> alignable r x s -> inr r (at_scale x s) = true.
Proof.
  intros [Hv _] [->|[_ H]]; [|exact H]. unfold at_scale. rewrite Z.sub_diag, Z.pow_0_r, Z.mul_1_r. exact Hv.
Qed.

Lemma align_spec r x y : decimal r x -> decimal r y ->
  (alignable r x (mscale x y) /\ alignable r y (mscale x y) ->
     align r x y = Ok (at_scale x (mscale x y), at_scale y (mscale x y))) /\
  (~ (alignable r x (mscale x y) /\ alignable r y (mscale x y)) -> align r x y = Err UB).
Proof.
  intros Hx Hy.
  assert (Hm : inr I32 (mscale x y) = true).
  { destruct Hx as [_ Hx], Hy as [_ Hy]. unfold mscale. destruct (Z.min_spec (scale x) (scale y)) as [[_ ->]|[_ ->]]; auto. }
  destruct (rescaled_spec r x (mscale x y) Hx Hm) as [A1 A2]; [unfold mscale; lia|].
  destruct (rescaled_spec r y (mscale x y) Hy Hm) as [B1 B2]; [unfold mscale; lia|].
  unfold align. fold (mscale x y). split.
  - intros [Ax Ay]. rewrite (A1 Ax), (B1 Ay). reflexivity.
  - intros N. destruct (alignable_dec r x (mscale x y)) as [Ax|Ax].
    + rewrite (A1 Ax). cbn [rbind]. rewrite B2 by tauto. reflexivity.
    + rewrite (A2 Ax). reflexivity.
Qed.

Lemma addition_overflow_spec r l h : addition_overflow r l h = true <-> ((0 < h /\ rmax r < l + h) \/ (h <= 0 /\ l + h < rmin r)).
Proof. unfold addition_overflow. destruct (Z.ltb_spec 0 h); lia. Qed.
Lemma addition_test r l h : inr r l = true -> inr r h = true -> addition_overflow r l h = negb (inr r (l + h)).
Proof.
  rewrite !inr_spec. intros. apply eq_true_iff_eq. rewrite addition_overflow_spec, negb_true_iff, <- not_true_iff_false, inr_spec.
  pose proof (rmin_max r). pose proof (rmax_pos r). lia.
Qed.
Lemma subtraction_test r l h : inr r l = true -> inr r h = true -> subtraction_overflow r l h = negb (inr r (l - h)).
Proof.
  rewrite !inr_spec. intros. apply eq_true_iff_eq. rewrite negb_true_iff, <- not_true_iff_false, inr_spec.
  pose proof (rmin_max r). pose proof (rmax_pos r). unfold subtraction_overflow. destruct (Z.ltb_spec 0 h); lia.
Qed.

Lemma quot_up a b c : 0 < b -> 0 <= a -> (Z.quot a b < c <-> a < c * b).
Proof.
  intros Hb Ha. rewrite Z.quot_div_nonneg by lia. split; intros H.
  - pose proof (Z.div_mod a b). pose proof (Z.mod_pos_bound a b Hb). nia.
  - apply Z.div_lt_upper_bound; lia.
Qed.

Lemma multiplication_test r l h : inr r l = true -> inr r h = true ->
  multiplication_overflow r l h = negb (inr r (l * h)).
Proof.
  rewrite !inr_spec. intros Hl Hh. apply eq_true_iff_eq. rewrite negb_true_iff, <- not_true_iff_false, inr_spec.
  pose proof (rmin_max r) as M. pose proof (rmax_pos r) as P. unfold multiplication_overflow.
  destruct (Z.ltb_spec 0 h).
  - pose proof (quot_up (rmax r) h l ltac:(lia) ltac:(lia)) as Q1.
    assert (Q2 : l < Z.quot (rmin r) h <-> l * h < rmin r).
    { replace (rmin r) with (- (- rmin r)) by lia. rewrite Z.quot_opp_l by lia.
      pose proof (quot_up (- rmin r) h (- l) ltac:(lia) ltac:(lia)). lia. }
    rewrite orb_true_iff, !Z.ltb_lt, Q1, Q2. lia.
  - destruct (Z.ltb_spec h (-1)).
    + assert (Q1 : Z.quot (rmin r) h < l <-> - rmin r < l * (- h)).
      { replace (Z.quot (rmin r) h) with (Z.quot (- rmin r) (- h)) by (rewrite Z.quot_opp_opp by lia; reflexivity).
        apply quot_up; lia. }
      assert (Q2 : l < Z.quot (rmax r) h <-> rmax r < (- l) * (- h)).
      { replace h with (- - h) at 1 by lia. rewrite Z.quot_opp_r by lia.
        pose proof (quot_up (rmax r) (- h) (- l) ltac:(lia) ltac:(lia)). lia. }
      rewrite orb_true_iff, !Z.ltb_lt, Q1, Q2. lia.
    + rewrite andb_true_iff, !Z.eqb_eq. nia.
Qed.

Lemma division_test r l h : inr r l = true -> inr r h = true -> h <> 0 ->
  division_overflow r l h = negb (inr r (Z.quot l h)).
Proof.
  rewrite !inr_spec. intros Hl Hh Hn. apply eq_true_iff_eq. rewrite negb_true_iff, <- not_true_iff_false, inr_spec.
  pose proof (rmin_max r) as M. pose proof (rmax_pos r) as P. unfold division_overflow.
  rewrite andb_true_iff, !Z.eqb_eq. split.
  - intros [-> ->]. change (-1) with (- (1)). rewrite Z.quot_opp_r, Z.quot_1_r by lia. lia.
  - intros N. assert (Hq : Z.abs (Z.quot l h) <= Z.abs l).
    { rewrite <- Z.quot_abs by lia. apply Z.quot_le_upper_bound; nia. }
    destruct (Z.eq_dec h (-1)) as [->|H1].
    + change (-1) with (- (1)) in *. rewrite Z.quot_opp_r, Z.quot_1_r in N by lia. lia.
    + destruct (Z.eq_dec l (rmin r)) as [->|H2]; [|lia].
      exfalso. apply N. assert (0 < Z.abs h) by lia.
      destruct (Z.eq_dec h 1) as [->|H3]; [rewrite Z.quot_1_r; lia|].
      assert (2 <= Z.abs h) by lia.
      assert (Z.abs (Z.quot (rmin r) h) <= rmax r).
      { rewrite <- Z.quot_abs by lia. apply Z.quot_le_upper_bound; nia. }
      lia.
Qed.

(** rationals *)
Lemma ten_nz : ~ (10 # 1 == 0)%Q. Proof. discriminate. Qed.
Lemma pow_inj n : 0 <= n -> (Qpower (10 # 1) n == inject_Z (10 ^ n))%Q.
Proof.
  intros H. rewrite Zpower_Qpower by exact H. reflexivity.
Qed.
Lemma toQ_at x s : s <= scale x -> (toQ x == inject_Z (at_scale x s) * Qpower (10 # 1) s)%Q.
Proof.
  intros H. unfold toQ, at_scale. rewrite inject_Z_mult, <- pow_inj by lia.
  replace (scale x) with ((scale x - s) + s) at 1 by lia.
  rewrite Qpower_plus by exact ten_nz. ring.
Qed.

Lemma pow_pos s : (0 < Qpower (10 # 1) s)%Q.
Proof.
  assert (H : (0 <= Qpower (10 # 1) s)%Q) by (apply Qpower_pos; discriminate).
  apply Qle_lteq in H as [H|H]; [exact H|]. exfalso. symmetry in H. revert H. apply Qpower_not_0. exact ten_nz.
Qed.

(** operators *)

Lemma add_spec r x y : decimal r x -> decimal r y ->
  (add_fits r x y -> exists z, fadd r x y = Ok z /\ decimal r z /\ (toQ z == toQ x + toQ y)%Q) /\
  (~ add_fits r x y -> fadd r x y = Err UB).
Proof.
  intros Hx Hy. destruct (align_spec r x y Hx Hy) as [A B]. unfold fadd, add_fits. fold (mscale x y).
  assert (Hm : inr I32 (mscale x y) = true).
  { destruct Hx as [_ Hx], Hy as [_ Hy]. unfold mscale. destruct (Z.min_spec (scale x) (scale y)) as [[_ ->]|[_ ->]]; auto. }
  split.
  - intros (Ax & Ay & I). rewrite A by auto. cbn [rbind fst snd]. rewrite (chk_ok _ _ I). cbn [rbind].
    rewrite addition_test, I by (apply alignable_inr; auto). cbn [negb].
    eexists. split; [reflexivity|]. split; [split; assumption|].
    rewrite (toQ_at x (mscale x y)), (toQ_at y (mscale x y)) by (unfold mscale; lia).
    unfold toQ. cbn [value scale]. rewrite inject_Z_plus. ring.
  - intros N. destruct (alignable_dec r x (mscale x y)) as [Ax|Ax]; [|rewrite B by tauto; reflexivity].
    destruct (alignable_dec r y (mscale x y)) as [Ay|Ay]; [|rewrite B by tauto; reflexivity].
    rewrite A by auto. cbn [rbind fst snd]. rewrite chk_bad; [reflexivity|].
    destruct (inr r _) eqn:I; [exfalso; tauto|reflexivity].
Qed.

Lemma sub_spec r x y : decimal r x -> decimal r y ->
  (sub_fits r x y -> exists z, fsub r x y = Ok z /\ decimal r z /\ (toQ z == toQ x - toQ y)%Q) /\
  (~ sub_fits r x y -> fsub r x y = Err UB).
Proof.
  intros Hx Hy. destruct (align_spec r x y Hx Hy) as [A B]. unfold fsub, sub_fits. fold (mscale x y).
  assert (Hm : inr I32 (mscale x y) = true).
  { destruct Hx as [_ Hx], Hy as [_ Hy]. unfold mscale. destruct (Z.min_spec (scale x) (scale y)) as [[_ ->]|[_ ->]]; auto. }
  split.
  - intros (Ax & Ay & I). rewrite A by auto. cbn [rbind fst snd]. rewrite (chk_ok _ _ I). cbn [rbind].
    rewrite subtraction_test, I by (apply alignable_inr; auto). cbn [negb].
    eexists. split; [reflexivity|]. split; [split; assumption|].
    rewrite (toQ_at x (mscale x y)), (toQ_at y (mscale x y)) by (unfold mscale; lia).
    unfold toQ. cbn [value scale]. unfold Z.sub. rewrite inject_Z_plus, inject_Z_opp. ring.
  - intros N. destruct (alignable_dec r x (mscale x y)) as [Ax|Ax]; [|rewrite B by tauto; reflexivity].
    destruct (alignable_dec r y (mscale x y)) as [Ay|Ay]; [|rewrite B by tauto; reflexivity].
    rewrite A by auto. cbn [rbind fst snd]. rewrite chk_bad; [reflexivity|].
    destruct (inr r _) eqn:I; [exfalso; tauto|reflexivity].
Qed.

Lemma mul_spec r x y : decimal r x -> decimal r y -> inr I32 (scale x + scale y) = true ->
  (inr r (value x * value y) = true -> exists z, fmul r x y = Ok z /\ decimal r z /\ (toQ z == toQ x * toQ y)%Q) /\
  (inr r (value x * value y) = false -> fmul r x y = Err Throw).
Proof.
  intros [Hx Sx] [Hy Sy] Hs. unfold fmul. rewrite multiplication_test by auto. split; intros I; rewrite I; cbn [negb].
  - rewrite (chk_ok _ _ I), (chk_ok _ _ Hs). cbn [rbind]. eexists. split; [reflexivity|]. split; [split; assumption|].
    unfold toQ. cbn [value scale]. rewrite inject_Z_mult, Qpower_plus by exact ten_nz. ring.
  - reflexivity.
Qed.

Lemma div_spec r x y : decimal r x -> decimal r y -> inr I32 (scale x - scale y) = true -> value y <> 0 ->
  (inr r (Z.quot (value x) (value y)) = true ->
     exists z rem, fdiv r x y = Ok z /\ decimal r z /\ Z.abs rem < Z.abs (value y) /\ 0 <= value x * rem /\
       (toQ x == toQ z * toQ y + inject_Z rem * Qpower (10 # 1) (scale x))%Q) /\
  (inr r (Z.quot (value x) (value y)) = false -> fdiv r x y = Err Throw).
Proof.
  intros [Hx Sx] [Hy Sy] Hs Hn. unfold fdiv. rewrite division_test by auto. split; intros I; rewrite I; cbn [negb].
  - replace (value y =? 0) with false by lia. rewrite (chk_ok _ _ I), (chk_ok _ _ Hs). cbn [rbind].
    eexists. exists (Z.rem (value x) (value y)). split; [reflexivity|]. split; [split; assumption|].
    split; [apply Z.rem_bound_abs; exact Hn|].
    split. { pose proof (Z.rem_sign_mul (value x) (value y) Hn). lia. }
    unfold toQ. cbn [value scale].
    rewrite (Z.quot_rem' (value x) (value y)) at 1. rewrite inject_Z_plus, inject_Z_mult.
    assert (E : (Qpower (10 # 1) (scale x) == Qpower (10 # 1) (scale x - scale y) * Qpower (10 # 1) (scale y))%Q).
    { rewrite <- Qpower_plus by exact ten_nz. replace (scale x - scale y + scale y) with (scale x) by lia. reflexivity. }
    rewrite E at 1. rewrite E. ring.
  - reflexivity.
Qed.

Lemma cmp_spec r x y : decimal r x -> decimal r y ->
  (alignable r x (mscale x y) /\ alignable r y (mscale x y) -> fcmp r x y = Ok (Qcompare (toQ x) (toQ y))) /\
  (~ (alignable r x (mscale x y) /\ alignable r y (mscale x y)) -> fcmp r x y = Err UB).
Proof.
  intros Hx Hy. destruct (align_spec r x y Hx Hy) as [A B]. unfold fcmp. split; intros H.
  - rewrite A by exact H. cbn [rbind fst snd]. f_equal.
    rewrite (toQ_at x (mscale x y)), (toQ_at y (mscale x y)) by (unfold mscale; lia).
    pose proof (pow_pos (mscale x y)) as P. revert P. generalize (Qpower (10 # 1) (mscale x y)) as p.
    generalize (at_scale x (mscale x y)) as a, (at_scale y (mscale x y)) as b. intros a b p P.
    symmetry. destruct (Z.compare_spec a b) as [->|L|L].
    + apply Qeq_alt. reflexivity.
    + apply Qlt_alt. apply Qmult_lt_compat_r; [exact P|]. rewrite <- Zlt_Qlt. exact L.
    + apply Qgt_alt. apply Qmult_lt_compat_r; [exact P|]. rewrite <- Zlt_Qlt. exact L.
  - rewrite B by exact H. reflexivity.
Qed.

(** text *)
Lemma exp10_spec r : forall n v, 1 <= v -> exp10 r n v = chk r (v * 10 ^ Z.of_nat n) \/ (n = O /\ inr r v = false).
Proof.
  induction n as [|n IH]; intros v Hv.
  - cbn [exp10]. rewrite Z.mul_1_r. destruct (inr r v) eqn:I; [left; rewrite chk_ok; auto|right; auto].
  - left. cbn [exp10]. rewrite Nat2Z.inj_succ, Z.pow_succ_r by lia. rewrite Z.mul_assoc.
    destruct (inr r (v * 10)) eqn:I.
    + rewrite (chk_ok _ _ I). cbn [rbind]. destruct (IH (v * 10)) as [E|[_ E]]; [lia|exact E|congruence].
    + rewrite (chk_bad _ _ I). cbn [rbind]. rewrite chk_bad; [reflexivity|].
      apply not_true_iff_false. rewrite inr_spec. apply not_true_iff_false in I. rewrite inr_spec in I.
      pose proof (Z.pow_pos_nonneg 10 (Z.of_nat n)). pose proof (rmin_max r). pose proof (rmax_pos r). nia.
Qed.

Lemma dec_digits_length fuel : forall n k, (n < 10 ^ N.of_nat k)%N -> (1 <= k)%nat ->
  (length (dec_digits fuel n []) <= k)%nat.
Proof.
  induction fuel as [|f IH]; intros n k H Hk; [cbn; lia|]. cbn [dec_digits].
  destruct (N.ltb_spec n 10); [cbn; lia|]. rewrite dec_digits_app, app_length. cbn [length].
  destruct k as [|[|k]]; [lia|cbn in H; lia|].
  assert (length (dec_digits f (n / 10) []) <= S k)%nat; [|lia]. apply IH; [|lia].
  rewrite Nat2N.inj_succ, N.pow_succ_r' in H. lia.
Qed.

Lemma digits_val_zeros k a : digits_val (repeat (byte_of_N 48) k ++ a) 0 = digits_val a 0.
Proof. induction k as [|k IH]; [reflexivity|]. exact IH. Qed.
Lemma zeros_digits k : forallb is_digit (repeat (byte_of_N 48) k) = true.
Proof. induction k; auto. Qed.
Lemma digits_val_acc b : forallb is_digit b = true -> forall acc,
  digits_val b acc = (acc * 10 ^ N.of_nat (length b) + digits_val b 0)%N.
Proof.
  induction b as [|x b IH]; intros H acc.
  - cbn. lia.
  - cbn [forallb] in H. apply andb_true_iff in H as [H1 H2]. cbn [digits_val length]. unfold is_digit in H1.
    rewrite H1. rewrite (IH H2 (acc * 10 + _)%N), (IH H2 (0 * 10 + _)%N).
    rewrite Nat2N.inj_succ, N.pow_succ_r'. lia.
Qed.

Lemma digits_val_trailing a k : forallb is_digit a = true ->
  digits_val (a ++ repeat (byte_of_N 48) k) 0 = (digits_val a 0 * 10 ^ N.of_nat k)%N.
Proof.
  intros H. rewrite digits_val_app by exact H. rewrite digits_val_acc by apply zeros_digits.
  rewrite repeat_length. pose proof (digits_val_zeros k []) as Z0. rewrite app_nil_r in Z0. rewrite Z0. cbn. lia.
Qed.

Lemma text_spec r x : decimal r x -> r <> I128 -> value x <> rmin r \/ 0 <= scale x ->
  10 ^ (- scale x) <= rmax r -> 
  exists t, to_text r x = Ok t /\ notation x t.
Proof.
  intros [Hv Hs] Hr Hmin Hsc. unfold to_text, notation. pose proof (rmin_max r) as M. pose proof (rmax_pos r) as P.
  assert (FMT : forall v, fmt r v = (if v <? 0 then str "-" else []) ++ to_string (Z.to_N (Z.abs v))).
  { intros v. destruct r; [reflexivity|reflexivity|contradiction]. }
  apply inr_spec in Hv. destruct (Z.ltb_spec (scale x) 0) as [L|L].
  - assert (AV : (if 0 <=? value x then Ok (value x) else chk r (- value x)) = Ok (Z.abs (value x))).
    { destruct (Z.leb_spec 0 (value x)).
      - rewrite Z.abs_eq by lia. reflexivity.
      - rewrite chk_ok; [rewrite Z.abs_neq by lia; reflexivity|]. apply inr_spec. lia. }
    rewrite AV. cbn [rbind].
    assert (N32 : inr I32 (- scale x) = true).
    { apply inr_spec. assert (rmax I32 = 2147483647) by reflexivity. pose proof (rmin_max I32).
      pose proof (pow10_bound r (- scale x)). destruct (Z_le_dec (2 ^ 8) (- scale x)); lia. }
    rewrite (chk_ok _ _ N32). cbn [rbind].
    set (k := - scale x) in *.
    assert (Hp : 0 < 10 ^ k) by (apply Z.pow_pos_nonneg; lia).
    destruct (exp10_spec r (Z.to_nat k) 1) as [E|[E _]]; [lia| |lia].
    rewrite Z2Nat.id, Z.mul_1_l in E by lia. rewrite E, chk_ok by (apply inr_spec; lia). cbn [rbind].
    set (av := Z.abs (value x)). assert (0 <= av) by (unfold av; lia).
    pose proof (Z.rem_bound_pos av (10 ^ k) ltac:(lia) ltac:(lia)) as HR.
    pose proof (Z.quot_pos av (10 ^ k) ltac:(lia) ltac:(lia)) as HQ.
    rewrite !FMT. replace (Z.quot av (10 ^ k) <? 0) with false by lia.
    replace (Z.rem av (10 ^ k) <? 0) with false by lia. cbn [app]. rewrite !Z.abs_eq by lia.
    set (q := Z.quot av (10 ^ k)) in *. set (f := Z.rem av (10 ^ k)) in *.
    destruct (to_string_spec (Z.to_N q)) as (Q1 & Q2 & Q3). destruct (to_string_spec (Z.to_N f)) as (F1 & F2 & F3).
    assert (FL : (length (to_string (Z.to_N f)) <= Z.to_nat k)%nat).
    { apply dec_digits_length; [|lia]. apply N2Z.inj_lt. rewrite N2Z.inj_pow, Z2N.id, nat_N_Z, Z2Nat.id by lia. apply HR. }
    eexists. split; [reflexivity|].
    exists (if value x <? 0 then str "-" else []), (to_string (Z.to_N q)),
      (repeat (byte_of_N 48) (Z.to_nat (Z.max 0 (k - Z.of_nat (length (to_string (Z.to_N f)))))) ++ to_string (Z.to_N f)).
    split; [exact Q2|]. split; [exact Q3|]. split; [unfold digits; rewrite forallb_app, zeros_digits; exact F2|].
    split; [reflexivity|]. split; [reflexivity|]. split.
    + rewrite app_length, repeat_length. lia.
    + rewrite digits_val_app by exact Q2. rewrite Q1.
      rewrite digits_val_acc by (rewrite forallb_app, zeros_digits; exact F2).
      rewrite digits_val_zeros, F1, app_length, repeat_length.
      replace (Z.to_nat (Z.max 0 (k - Z.of_nat (length (to_string (Z.to_N f))))) + length (to_string (Z.to_N f)))%nat
        with (Z.to_nat k) by lia.
      rewrite N2Z.inj_add, N2Z.inj_mul, N2Z.inj_pow, !Z2N.id, nat_N_Z, Z2Nat.id by lia. change (Z.of_N 10) with 10.
      pose proof (Z.quot_rem' av (10 ^ k)). fold q f in H0. lia.
  - eexists. split; [reflexivity|]. rewrite FMT.
    destruct (to_string_spec (Z.to_N (Z.abs (value x)))) as (Q1 & Q2 & Q3).
    exists (if value x <? 0 then str "-" else []), (to_string (Z.to_N (Z.abs (value x))) ++ repeat (byte_of_N 48) (Z.to_nat (scale x))), [].
    split; [unfold digits; rewrite forallb_app, Q2, zeros_digits; reflexivity|].
    split. { intros X. apply app_eq_nil in X as [X _]. contradiction. }
    split; [reflexivity|]. split; [reflexivity|]. split; [rewrite app_assoc; reflexivity|]. split; [reflexivity|].
    rewrite digits_val_trailing by exact Q2. rewrite Q1, N2Z.inj_mul, N2Z.inj_pow, Z2N.id, nat_N_Z, Z2Nat.id by lia.
    reflexivity.
Qed.
