(** Proofs about the comparison of index keys. *)
From Verif Require Import Bytes ByteOrd PhysModel PhysSpec.
From Coq Require Import ZArith QArith Qpower Lia Lqa Bool.
Local Open Scope Z_scope.

(** ** Floating point comparison is comparison of the numbers *)
Lemma scale m e k : k <= e -> (inject_Z m * (2 # 1) ^ e == inject_Z (m * 2 ^ (e - k)) * (2 # 1) ^ k)%Q.
Proof.
  intros H. replace e with ((e - k) + k) at 1 by lia. rewrite Qpower_plus by discriminate.
  rewrite inject_Z_mult, Zpower_Qpower by lia. change (inject_Z 2) with (2 # 1). ring.
Qed.

Lemma fin_lt m1 e1 m2 e2 : flt_lt (Fin m1 e1) (Fin m2 e2) = true <->
  (inject_Z m1 * (2 # 1) ^ e1 < inject_Z m2 * (2 # 1) ^ e2)%Q.
Proof.
  cbn [flt_lt]. set (k := Z.min e1 e2).
  rewrite (scale m1 e1 k), (scale m2 e2 k) by (subst k; lia).
  assert (P : (0 < (2 # 1) ^ k)%Q) by (apply Qpower_0_lt; reflexivity).
  rewrite Qmult_lt_r by exact P. rewrite <- Zlt_Qlt. apply Z.ltb_lt.
Qed.

Lemma flt_lt_number a b x y : flt_number a = Some x -> flt_number b = Some y ->
  flt_lt a b = true <-> number_lt x y.
Proof.
  destruct a as [m1 e1|[]|], b as [m2 e2|[]|]; intros A B; try discriminate A; try discriminate B;
    injection A as <-; injection B as <-; try (cbn; intuition discriminate).
  apply fin_lt.
Qed.

(** ** Rounding *)
Lemma round_pos_exact p n : 0 < p -> 0 <= n <= 2 ^ p -> round_pos p n = n.
Proof.
  intros Hp H. unfold round_pos. destruct (Z.ltb_spec n (2 ^ p)); [reflexivity|].
  assert (E : n = 2 ^ (p - 1) * 2).
  { assert (S : 2 ^ p = 2 * 2 ^ (p - 1)) by (rewrite <- Z.pow_succ_r by lia; f_equal; lia). lia. }
  assert (L : Z.log2 n = p) by (replace n with (2 ^ p) by lia; apply Z.log2_pow2; lia).
  rewrite L. replace (p + 1 - p) with 1 by lia. change (2 ^ 1) with 2. clear L. rewrite E.
  rewrite Z.div_mul, Z_mod_mult by lia. reflexivity.
Qed.

Lemma round_pos_range p n : 0 < p -> 2 ^ p <= n ->
  2 ^ Z.log2 n <= round_pos p n <= 2 ^ (Z.log2 n + 1).
Proof.
  intros Hp H. assert (P0 : 0 < 2 ^ p) by (apply Z.pow_pos_nonneg; lia).
  destruct (Z.log2_spec n) as [L1 L2]; [lia|].
  assert (LP : p <= Z.log2 n) by (apply Z.log2_le_pow2; lia).
  unfold round_pos. destruct (Z.ltb_spec n (2 ^ p)); [lia|].
  set (L := Z.log2 n) in *. set (k := L + 1 - p) in *.
  assert (K0 : 0 < 2 ^ k) by (apply Z.pow_pos_nonneg; lia).
  assert (S1 : 2 ^ L = 2 ^ (p - 1) * 2 ^ k) by (rewrite <- Z.pow_add_r by lia; f_equal; lia).
  assert (S2 : 2 ^ (L + 1) = 2 ^ p * 2 ^ k) by (rewrite <- Z.pow_add_r by lia; f_equal; lia).
  replace (Z.succ L) with (L + 1) in L2 by lia.
  assert (Q1 : 2 ^ (p - 1) <= n / 2 ^ k) by (apply Z.div_le_lower_bound; lia).
  assert (Q2 : n / 2 ^ k < 2 ^ p) by (apply Z.div_lt_upper_bound; lia).
  rewrite S1, S2. destruct (_ || _); split; apply Z.mul_le_mono_nonneg_r; lia.
Qed.

Lemma round_pos_mono p a b : 0 < p -> 0 <= a <= b -> round_pos p a <= round_pos p b.
Proof.
  intros Hp H. destruct (Z.ltb_spec a (2 ^ p)) as [A|A].
  - rewrite (round_pos_exact p a) by lia. destruct (Z.ltb_spec b (2 ^ p)) as [B|B].
    + rewrite (round_pos_exact p b) by lia. lia.
    + pose proof (round_pos_range p b Hp B) as R.
      assert (p <= Z.log2 b) by (apply Z.log2_le_pow2; [assert (0 < 2 ^ p) by (apply Z.pow_pos_nonneg; lia)|]; lia).
      assert (2 ^ p <= 2 ^ Z.log2 b) by (apply Z.pow_le_mono_r; lia). lia.
  - assert (B : 2 ^ p <= b) by lia.
    assert (P0 : 0 < 2 ^ p) by (apply Z.pow_pos_nonneg; lia).
    pose proof (Z.log2_le_mono a b ltac:(lia)) as LM.
    destruct (Z.eq_dec (Z.log2 a) (Z.log2 b)) as [E|NE].
    + unfold round_pos. destruct (Z.ltb_spec a (2 ^ p)); [lia|]. destruct (Z.ltb_spec b (2 ^ p)); [lia|].
      assert (LP : p <= Z.log2 a) by (apply Z.log2_le_pow2; lia).
      rewrite <- E. set (k := Z.log2 a + 1 - p).
      assert (K0 : 0 < 2 ^ k) by (apply Z.pow_pos_nonneg; lia).
      pose proof (Z.div_mod a (2 ^ k) ltac:(lia)) as DA. pose proof (Z.div_mod b (2 ^ k) ltac:(lia)) as DB.
      pose proof (Z.mod_pos_bound a (2 ^ k) K0) as MA. pose proof (Z.mod_pos_bound b (2 ^ k) K0) as MB.
      assert (QM : a / 2 ^ k <= b / 2 ^ k) by (apply Z.div_le_mono; lia).
      apply Z.mul_le_mono_nonneg_r; [lia|].
      destruct (Z.eq_dec (a / 2 ^ k) (b / 2 ^ k)) as [QE|QN].
      * rewrite <- QE in *. assert (RM : a mod 2 ^ k <= b mod 2 ^ k) by lia.
        destruct (Z.ltb_spec (2 ^ k) (2 * (a mod 2 ^ k))), (Z.ltb_spec (2 ^ k) (2 * (b mod 2 ^ k)));
          cbn [orb]; try lia.
        -- destruct (_ && _); lia.
        -- destruct (Z.eqb_spec (2 * (a mod 2 ^ k)) (2 ^ k)), (Z.eqb_spec (2 * (b mod 2 ^ k)) (2 ^ k)); cbn [andb];
             try lia. destruct (Z.odd _); lia.
      * destruct ((2 ^ k <? 2 * (a mod 2 ^ k)) || _), ((2 ^ k <? 2 * (b mod 2 ^ k)) || _); lia.
    + pose proof (round_pos_range p a Hp A). pose proof (round_pos_range p b Hp B).
      assert (2 ^ (Z.log2 a + 1) <= 2 ^ Z.log2 b) by (apply Z.pow_le_mono_r; lia). lia.
Qed.

Lemma round_pos_nonneg p n : 0 < p -> 0 <= n -> 0 <= round_pos p n.
Proof. intros Hp H. rewrite <- (round_pos_exact p 0) at 1; [apply round_pos_mono; lia|lia|]. split; [lia|apply Z.pow_nonneg; lia]. Qed.

Lemma round_mono p a b : 0 < p -> a <= b -> round p a <= round p b.
Proof.
  intros Hp H. unfold round. destruct (Z.ltb_spec a 0), (Z.ltb_spec b 0); try lia.
  - pose proof (round_pos_mono p (- b) (- a) Hp ltac:(lia)). lia.
  - pose proof (round_pos_nonneg p (- a) Hp ltac:(lia)). pose proof (round_pos_nonneg p b Hp ltac:(lia)). lia.
  - apply round_pos_mono; lia.
Qed.

Lemma round_exact p n : 0 < p -> Z.abs n <= 2 ^ p -> round p n = n.
Proof.
  intros Hp H. unfold round. destruct (Z.ltb_spec n 0); rewrite round_pos_exact by lia; lia.
Qed.

Lemma of_int_number p z : flt_number (of_int p z) = Some (Rat (inject_Z (round p z) * (2 # 1) ^ 0)).
Proof. reflexivity. Qed.

(** ** Integers *)
Lemma int_less_spec t1 z1 t2 z2 : in_range t1 z1 -> in_range t2 z2 -> int_less t1 z1 t2 z2 = (z1 <? z2).
Proof.
  intros H1 H2. unfold int_less, in_range, make_unsigned in *.
  assert (W : forall t, 2 ^ width t = 2 * 2 ^ (width t - 1) /\ 0 < 2 ^ (width t - 1)) by (intros []; cbn; lia).
  pose proof (W t1). pose proof (W t2).
  destruct (signed t1), (signed t2); cbn [Bool.eqb]; try reflexivity.
  - destruct (Z.ltb_spec z1 0); cbn [orb].
    + symmetry. apply Z.ltb_lt. lia.
    + rewrite Z.mod_small by lia. reflexivity.
  - destruct (Z.leb_spec 0 z2); cbn [andb].
    + rewrite Z.mod_small by lia. reflexivity.
    + symmetry. apply Z.ltb_ge. lia.
Qed.

(** ** The meaning of [operator<] *)
Lemma number_rat p q : (p == q)%Q -> forall n, (number_lt (Rat p) n <-> number_lt (Rat q) n) /\ (number_lt n (Rat p) <-> number_lt n (Rat q)).
Proof. intros E [| r|]; cbn; rewrite ?E; tauto. Qed.

Lemma lt_int_l p z f n : 0 < p -> Z.abs z <= 2 ^ p -> flt_number f = Some n ->
  flt_lt (of_int p z) f = true <-> number_lt (Rat (inject_Z z)) n.
Proof.
  intros Hp H F. rewrite (flt_lt_number _ _ _ _ (of_int_number p z) F), round_exact by assumption.
  apply number_rat. cbn [Qpower]. ring.
Qed.
Lemma lt_int_r p z f n : 0 < p -> Z.abs z <= 2 ^ p -> flt_number f = Some n ->
  flt_lt f (of_int p z) = true <-> number_lt n (Rat (inject_Z z)).
Proof.
  intros Hp H F. rewrite (flt_lt_number _ _ _ _ F (of_int_number p z)), round_exact by assumption.
  apply number_rat. cbn [Qpower]. ring.
Qed.

Lemma not_nan f : f <> Nan -> exists n, flt_number f = Some n.
Proof. destruct f as [m e|[]|]; [| | |contradiction]; intros _; eexists; reflexivity. Qed.

Lemma less_before r a b : exact r a -> exact r b -> less a b = true <-> before (means a) (means b).
Proof.
  destruct a as [x|t1 z1|f|f|s1|], b as [y|t2 z2|g|g|s2|]; intros A B; cbn [less means exact type_code] in *;
    repeat match goal with
    | H : _ /\ _ |- _ => destruct H
    | H : ?f <> Nan |- _ => let n := fresh "n" in let E := fresh "E" in destruct (not_nan f H) as [n E]; rewrite E; clear H
    end;
    try (cbn; intuition (try discriminate; try lia); fail);
    try (cbn; destruct t1; cbn; intuition (try discriminate; try lia); fail);
    try (cbn; destruct t2; cbn; intuition (try discriminate; try lia); fail);
    cbn [before].
  - destruct x, y; cbn; intuition discriminate.
  - rewrite int_less_spec by assumption. cbn [number_lt]. rewrite <- Zlt_Qlt. apply Z.ltb_lt.
  - subst r. apply lt_int_l; [lia|assumption|assumption].
  - destruct r; [congruence| |]; apply lt_int_l; try assumption; lia.
  - subst r. apply lt_int_r; [lia|assumption|assumption].
  - apply flt_lt_number; assumption.
  - apply flt_lt_number; assumption.
  - destruct r; [congruence| |]; apply lt_int_r; try assumption; lia.
  - apply flt_lt_number; assumption.
  - apply flt_lt_number; assumption.
  - unfold bltb. destruct (bcmp s1 s2); intuition discriminate.
Qed.

(** ** [before] is a strict weak order *)
Lemma number_irrefl x : ~ number_lt x x.
Proof. destruct x; cbn; auto. apply Qlt_irrefl. Qed.
Lemma number_trans x y z : number_lt x y -> number_lt y z -> number_lt x z.
Proof. destruct x, y, z; cbn; try tauto. apply Qlt_trans. Qed.
Lemma number_weak x y z : ~ number_lt x y -> ~ number_lt y z -> ~ number_lt x z.
Proof. destruct x, y, z; cbn; try tauto. intros H1 H2 H3. apply Qnot_lt_le in H1, H2. lra. Qed.

Definition defined (m : meaning) : Prop := m <> MNone.

Lemma before_irrefl m : ~ before m m.
Proof.
  destruct m as [[]|n|s| |]; cbn; try lia; try (intuition discriminate).
  - apply number_irrefl.
  - rewrite bcmp_refl. discriminate.
Qed.

Lemma before_trans a b c : defined a -> defined b -> defined c -> before a b -> before b c -> before a c.
Proof.
  unfold defined. destruct a, b, c; cbn; intros; try congruence; try lia; try (intuition congruence).
  - eapply number_trans; eassumption.
  - eapply bcmp_trans; eassumption.
Qed.

Lemma before_weak a b c : defined a -> defined b -> defined c -> ~ before a b -> ~ before b c -> ~ before a c.
Proof.
  unfold defined. destruct a as [x|x|x| |], b as [y|y|y| |], c as [z|z|z| |]; cbn; intros; try congruence; try lia;
    try (intuition congruence).
  - destruct x, y, z; intuition congruence.
  - eapply number_weak; eassumption.
  - intros L. destruct (bcmp x y) eqn:E; [|contradiction|].
    + apply bcmp_eq in E. subst y. contradiction.
    + destruct (bcmp y z) eqn:F; [|contradiction|].
      * apply bcmp_eq in F. subst z. congruence.
      * rewrite bcmp_sym in E. destruct (bcmp y x) eqn:E'; try discriminate.
        pose proof (bcmp_trans _ _ _ E' L). congruence.
Qed.

Lemma exact_defined r v : exact r v -> defined (means v).
Proof.
  unfold defined. destruct v as [b|t z|f|f|s|]; cbn; try discriminate;
    intros [_ N]; destruct (not_nan f N) as [n ->]; discriminate.
Qed.

Lemma less_false r a b : exact r a -> exact r b -> less a b = false <-> ~ before (means a) (means b).
Proof.
  intros A B. rewrite <- (less_before r a b A B). destruct (less a b); split; congruence.
Qed.

Lemma equal_spec a b : equal a b = true <-> less a b = false /\ less b a = false.
Proof. unfold equal, greater. rewrite andb_true_iff, !negb_true_iff. tauto. Qed.

Lemma exact_order r : strict_weak_order (exact r) less equal.
Proof.
  split.
  - intros a A. apply (less_false r a a A A). apply before_irrefl.
  - intros a b c A B C. rewrite (less_before r a b), (less_before r b c), (less_before r a c) by assumption.
    apply before_trans; eapply exact_defined; eassumption.
  - intros a b c A B C. rewrite !equal_spec.
    rewrite (less_false r a b), (less_false r b c), (less_false r a c), (less_false r b a), (less_false r c b), (less_false r c a)
      by assumption.
    intros [H1 H2] [H3 H4]. split; eapply (before_weak _ (means b)); try assumption; eapply exact_defined; eassumption.
  - intros a b _ _. apply equal_spec.
Qed.

(** ** Integers of any size with doubles: a strict partial order *)
Lemma round_lt_l a b m e : a <= b -> flt_lt (of_int 53 b) (Fin m e) = true -> flt_lt (of_int 53 a) (Fin m e) = true.
Proof.
  intros H. unfold of_int. rewrite !fin_lt. intros L. eapply Qle_lt_trans; [|exact L].
  cbn [Qpower]. rewrite !Qmult_1_r, <- Zle_Qle. apply round_mono; lia.
Qed.
Lemma round_lt_r a b m e : a <= b -> flt_lt (Fin m e) (of_int 53 a) = true -> flt_lt (Fin m e) (of_int 53 b) = true.
Proof.
  intros H. unfold of_int. rewrite !fin_lt. intros L. eapply Qlt_le_trans; [exact L|].
  cbn [Qpower]. rewrite !Qmult_1_r, <- Zle_Qle. apply round_mono; lia.
Qed.
Lemma flt_trans a b c : b <> Nan -> flt_lt a b = true -> flt_lt b c = true -> flt_lt a c = true.
Proof.
  intros N H1 H2. assert (A : a <> Nan) by (intros ->; discriminate).
  assert (C : c <> Nan) by (intros ->; destruct b as [| []|]; discriminate).
  destruct (not_nan a A) as [x X], (not_nan b N) as [y Y], (not_nan c C) as [z Z].
  rewrite (flt_lt_number _ _ _ _ X Y) in H1. rewrite (flt_lt_number _ _ _ _ Y Z) in H2.
  rewrite (flt_lt_number _ _ _ _ X Z). eapply number_trans; eassumption.
Qed.

Lemma mixed_trans a b c : no_floats32 a -> no_floats32 b -> no_floats32 c ->
  less a b = true -> less b c = true -> less a c = true.
Proof.
  destruct a as [x|t1 z1|f|f|s1|], b as [y|t2 z2|g|g|s2|], c as [z|t3 z3|h|h|s3|]; intros A B C;
    cbn [less no_floats32 type_code] in *; try contradiction; try congruence; try reflexivity;
    try (destruct t1; discriminate); try (destruct t2; discriminate); try (destruct t3; discriminate);
    try (destruct t1; reflexivity); try discriminate;
    try (intros _; destruct t1; discriminate); try (intros _; destruct t2; discriminate).
  - destruct x, y, z; cbn; congruence.
  - rewrite !int_less_spec by assumption. rewrite !Z.ltb_lt. lia.
  - rewrite int_less_spec by assumption. rewrite Z.ltb_lt. intros L.
    destruct h as [m e|[]|]; [|discriminate|reflexivity|contradiction]. apply round_lt_l. lia.
  - intros H1 H2. rewrite int_less_spec by assumption. apply Z.ltb_lt.
    destruct g as [m e|[]|]; try discriminate.
    pose proof (flt_trans _ _ _ B H1 H2) as H. unfold of_int in H. rewrite fin_lt in H. cbn [Qpower] in H.
    rewrite !Qmult_1_r, <- Zlt_Qlt in H. destruct (Z_lt_ge_dec z1 z3); [assumption|].
    pose proof (round_mono 53 z3 z1 ltac:(lia) ltac:(lia)). lia.
  - apply flt_trans. assumption.
  - rewrite int_less_spec by assumption. rewrite Z.ltb_lt. intros H1 L.
    destruct f as [m e|[]|]; [|reflexivity|discriminate|contradiction]. apply (round_lt_r z2 z3); [lia|assumption].
  - apply flt_trans. discriminate.
  - apply flt_trans. assumption.
  - apply flt_trans. assumption.
  - unfold bltb. destruct (bcmp s1 s2) eqn:E; try discriminate. destruct (bcmp s2 s3) eqn:F; try discriminate.
    rewrite (bcmp_trans _ _ _ E F). reflexivity.
Qed.

Lemma less_irrefl a : less a a = false.
Proof.
  destruct a as [[]|t z|f|f|s|]; try reflexivity; cbn [less].
  - unfold int_less. rewrite Bool.eqb_reflx. apply Z.ltb_irrefl.
  - destruct f as [m e|[]|]; try reflexivity. cbn. apply Z.ltb_irrefl.
  - destruct f as [m e|[]|]; try reflexivity. cbn. apply Z.ltb_irrefl.
  - unfold bltb. rewrite bcmp_refl. reflexivity.
Qed.
