(** Proofs about table values: comparison, arithmetic and aggregates. *)
From Verif Require Import Bytes Outcome ByteOrd LValModel LValSpec.
From Coq Require Import ZArith Lia.
Open Scope Z_scope.

Ltac pows :=
  change (2 ^ (8 - 1)) with 128 in *; change (2 ^ (16 - 1)) with 32768 in *;
  change (2 ^ (32 - 1)) with 2147483648 in *; change (2 ^ (64 - 1)) with 9223372036854775808 in *;
  change (2 ^ (1 - 1)) with 1 in *;
  change (2 ^ 1) with 2 in *; change (2 ^ 8) with 256 in *; change (2 ^ 16) with 65536 in *;
  change (2 ^ 32) with 4294967296 in *; change (2 ^ 64) with 18446744073709551616 in *.

Lemma mod_shift z h : 0 < h -> - h <= z < h -> (z + h) mod (2 * h) - h = z.
Proof. intros H1 H2. rewrite Z.mod_small; lia. Qed.

Lemma conv_fits t z : basic t = true -> fits t z -> conv t z = z.
Proof.
  intros B F. destruct t; try discriminate; unfold fits in F; unfold conv; cbn [signed bits] in F;
    cbn [stored_signed is_signed is_duration orb width]; pows.
  - destruct (Z.eqb_spec z 0); lia.
  - apply (mod_shift z 128); lia.
  - apply (mod_shift z 32768); lia.
  - apply (mod_shift z 2147483648); lia.
  - apply (mod_shift z 9223372036854775808); lia.
  - apply Z.mod_small; lia.
  - apply Z.mod_small; lia.
  - apply Z.mod_small; lia.
  - apply Z.mod_small; lia.
Qed.

(** The promoted type of a comparable pair holds both numbers. *)
Lemma promote_fits t1 z1 t2 z2 :
  basic t1 = true -> basic t2 = true -> fits t1 z1 -> fits t2 z2 -> comparable t1 z1 t2 z2 ->
  basic (promote_type t1 t2) = true /\ fits (promote_type t1 t2) z1 /\ fits (promote_type t1 t2) z2.
Proof.
  intros B1 B2 F1 F2 C.
  destruct t1; try discriminate B1; destruct t2; try discriminate B2;
    unfold comparable, half in C; cbn [signed bits] in C;
    unfold fits in F1, F2; cbn [signed bits] in F1, F2;
    let p := eval vm_compute in (promote_type
      ltac:(match type of B1 with basic ?a = true => exact a end)
      ltac:(match type of B2 with basic ?a = true => exact a end)) in
    match type of B1 with basic ?a = true => match type of B2 with basic ?b = true =>
      change (promote_type a b) with p end end;
    try (exfalso; apply (proj1 C); reflexivity);
    (split; [reflexivity|]); unfold fits; cbn [signed bits];
    repeat match type of C with context [Z.max ?a ?b] =>
      let m := eval vm_compute in (Z.max a b) in change (Z.max a b) with m in C end;
    pows; lia.
Qed.

Lemma lty_eqb_spec a b : reflect (a = b) (lty_eqb a b).
Proof. unfold lty_eqb. destruct (lty_eq_dec a b); constructor; assumption. Qed.

Lemma basic_numeric t : basic t = true -> is_numeric t = true.
Proof. destruct t; try discriminate; reflexivity. Qed.

Lemma cast_num s t z : basic s = true -> basic t = true -> fits t z -> cast_as (VNum s z) t = Some (VNum t z).
Proof.
  intros B1 B2 F. unfold cast_as. cbn [type_of]. destruct (lty_eqb_spec s t); [subst; reflexivity|].
  rewrite (basic_numeric _ B1), (basic_numeric _ B2). cbn [andb]. rewrite (conv_fits _ _ B2 F). reflexivity.
Qed.

Lemma compare_with_num same t1 z1 t2 z2 :
  basic t1 = true -> basic t2 = true -> fits t1 z1 -> fits t2 z2 -> comparable t1 z1 t2 z2 ->
  exists t, basic t = true /\ compare_with same (VNum t1 z1) (VNum t2 z2) = same (VNum t z1) (VNum t z2).
Proof.
  intros B1 B2 F1 F2 C. unfold compare_with. cbn [type_of].
  destruct (lty_eqb_spec t1 t2) as [->|N].
  - exists t2. split; [assumption|reflexivity].
  - destruct (promote_fits _ _ _ _ B1 B2 F1 F2 C) as (B & G1 & G2).
    rewrite (basic_numeric _ B1), (basic_numeric _ B2). cbn [andb orb].
    rewrite (cast_num _ _ _ B1 B G1), (cast_num _ _ _ B2 B G2).
    exists (promote_type t1 t2). split; [assumption|reflexivity].
Qed.

Lemma lt_same_num t a b : basic t = true -> lt_same (VNum t a) (VNum t b) = Some (a <? b).
Proof. destruct t; try discriminate; reflexivity. Qed.
Lemma eq_same_num t a b : basic t = true -> eq_same (VNum t a) (VNum t b) = Some (a =? b).
Proof. destruct t; try discriminate; reflexivity. Qed.

Lemma lt_num t1 z1 t2 z2 :
  basic t1 = true -> basic t2 = true -> fits t1 z1 -> fits t2 z2 -> comparable t1 z1 t2 z2 ->
  vlt (VNum t1 z1) (VNum t2 z2) = Some (z1 <? z2).
Proof.
  intros B1 B2 F1 F2 C. destruct (compare_with_num lt_same _ _ _ _ B1 B2 F1 F2 C) as (t & B & E).
  unfold vlt. rewrite E. apply lt_same_num. assumption.
Qed.

Lemma eq_num t1 z1 t2 z2 :
  basic t1 = true -> basic t2 = true -> fits t1 z1 -> fits t2 z2 -> comparable t1 z1 t2 z2 ->
  veq (VNum t1 z1) (VNum t2 z2) = Some (z1 =? z2).
Proof.
  intros B1 B2 F1 F2 C. destruct (compare_with_num eq_same _ _ _ _ B1 B2 F1 F2 C) as (t & B & E).
  unfold veq. rewrite E. apply eq_same_num. assumption.
Qed.

Lemma comparable_sym t1 z1 t2 z2 : comparable t1 z1 t2 z2 -> comparable t2 z2 t1 z1.
Proof. unfold comparable. destruct (signed t1), (signed t2); auto. Qed.

Lemma compare_num t1 z1 t2 z2 :
  basic t1 = true -> basic t2 = true -> fits t1 z1 -> fits t2 z2 -> comparable t1 z1 t2 z2 ->
  veqb (VNum t1 z1) (VNum t2 z2) = (z1 =? z2) /\ vneb (VNum t1 z1) (VNum t2 z2) = negb (z1 =? z2) /\
  vltb (VNum t1 z1) (VNum t2 z2) = (z1 <? z2) /\ vgtb (VNum t1 z1) (VNum t2 z2) = (z2 <? z1) /\
  vleb (VNum t1 z1) (VNum t2 z2) = (z1 <=? z2) /\ vgeb (VNum t1 z1) (VNum t2 z2) = (z2 <=? z1) /\
  vcompare (VNum t1 z1) (VNum t2 z2) = (z1 ?= z2).
Proof.
  intros B1 B2 F1 F2 C.
  pose proof (lt_num _ _ _ _ B1 B2 F1 F2 C) as L.
  pose proof (eq_num _ _ _ _ B1 B2 F1 F2 C) as E.
  pose proof (lt_num _ _ _ _ B2 B1 F2 F1 (comparable_sym _ _ _ _ C)) as G.
  unfold vcompare, vneb, vleb, vgeb, vgtb, veqb, vltb. rewrite L, E, G. cbn [holds].
  repeat split.
  - rewrite Z.leb_antisym. reflexivity.
  - rewrite Z.leb_antisym. reflexivity.
  - destruct (Z.eqb_spec z1 z2); [subst; symmetry; apply Z.compare_refl|].
    destruct (Z.ltb_spec z1 z2).
    + symmetry. apply Z.compare_lt_iff. assumption.
    + symmetry. apply Z.compare_gt_iff. lia.
Qed.

(** A large unsigned number is ordered before every nonnegative signed one. *)
Lemma large_unsigned u zu s zs :
  basic u = true -> signed u = false -> u <> TBool -> basic s = true -> signed s = true ->
  fits u zu -> fits s zs -> 0 <= zs -> ~ half s u zu ->
  vltb (VNum u zu) (VNum s zs) = true /\ vltb (VNum s zs) (VNum u zu) = false.
Proof.
  intros Bu Su Nb Bs Ss Fu Fs P H.
  destruct u; try discriminate Bu; try discriminate Su; try (exfalso; apply Nb; reflexivity);
  destruct s; try discriminate Bs; try discriminate Ss;
    unfold half in H; unfold fits in Fu, Fs; cbn [signed bits] in H, Fu, Fs;
    repeat match type of H with context [Z.max ?a ?b] =>
      let m := eval vm_compute in (Z.max a b) in change (Z.max a b) with m in H end;
    pows; try (exfalso; lia);
    unfold vltb, vlt, compare_with; cbn [type_of];
    repeat match goal with |- context [lty_eqb ?a ?b] =>
      let m := eval vm_compute in (lty_eqb a b) in change (lty_eqb a b) with m end;
    repeat match goal with |- context [promote_type ?a ?b] =>
      let m := eval vm_compute in (promote_type a b) in change (promote_type a b) with m end;
    cbn [is_numeric is_signed is_unsigned orb andb];
    unfold cast_as; cbn [type_of];
    repeat match goal with |- context [lty_eqb ?a ?b] =>
      let m := eval vm_compute in (lty_eqb a b) in change (lty_eqb a b) with m end;
    cbn [is_numeric is_signed is_unsigned orb andb]; cbn [lt_same holds];
    unfold conv; cbn [stored_signed is_signed is_duration orb width]; pows;
    match goal with |- ((?x + ?h) mod ?m - ?h <? _) = true /\ _ =>
      assert (EE : (x + h) mod m - h = x - m) by
        (rewrite <- (Z_mod_plus_full (x + h) (-1) m), Z.mod_small; lia); rewrite EE
    end;
    try match goal with |- context [(?x + ?h) mod ?m - ?h] =>
      let E2 := fresh in assert (E2 : (x + h) mod m - h = x) by (rewrite Z.mod_small; lia); rewrite E2
    end;
    (split; [apply Z.ltb_lt; lia | apply Z.ltb_ge; lia]).
Qed.

(** Booleans and signed numbers are never comparable: the promoted code is not a type. *)
Lemma bool_signed same b s z :
  basic s = true -> signed s = true ->
  compare_with same (VNum TBool b) (VNum s z) = None /\ compare_with same (VNum s z) (VNum TBool b) = None.
Proof. intros B S. destruct s; try discriminate; split; reflexivity. Qed.

(** Nothing can be compared with, or even equal to, a 128-bit number or a timestamp. *)
Lemma huge_same t a b : t = TI128 \/ t = TU128 \/ t = TSec \/ t = TMs \/ t = TUs \/ t = TNs ->
  vlt (VNum t a) (VNum t b) = None /\ veq (VNum t a) (VNum t b) = None.
Proof. intros H. repeat destruct H as [->|H]; try (split; reflexivity). subst. split; reflexivity. Qed.

Lemma duration_mixed t1 t2 a b : is_duration t1 = true -> is_duration t2 = true ->
  vlt (VNum t1 a) (VNum t2 b) = None /\ veq (VNum t1 a) (VNum t2 b) = None.
Proof. intros H1 H2. destruct t1; try discriminate; destruct t2; try discriminate; split; reflexivity. Qed.

Lemma str_num s t z : basic t = true ->
  vlt (VStr s) (VNum t z) = None /\ vlt (VNum t z) (VStr s) = None /\
  veq (VStr s) (VNum t z) = None /\ veq (VNum t z) (VStr s) = None.
Proof. intros B. destruct t; try discriminate; repeat split; reflexivity. Qed.

(** ** Arithmetic *)
Lemma in_range_fits t z : basic t = true -> t <> TBool -> in_range t z = true <-> fits t z.
Proof.
  intros B N. unfold in_range, tmin, tmax, fits. rewrite Bool.andb_true_iff, !Z.leb_le.
  destruct t; try discriminate; cbn [stored_signed is_signed is_duration orb width signed bits]; pows; try lia.
Qed.

Lemma arith_ok t r : basic t = true -> fits (result_type t) r -> arith t r = Ok (VNum (result_type t) r).
Proof.
  intros B F. unfold arith.
  assert (E : arith_type t = result_type t) by (destruct t; try discriminate; reflexivity).
  rewrite E. clear E. assert (B' : basic (result_type t) = true) by (destruct t; try discriminate; reflexivity).
  assert (N : result_type t <> TBool) by (destruct t; discriminate).
  destruct (stored_signed (result_type t)).
  - rewrite (proj2 (in_range_fits _ _ B' N) F). reflexivity.
  - rewrite (conv_fits _ _ B' F). reflexivity.
Qed.

Lemma arith_unsigned t r : (t = TU32 \/ t = TU64) -> arith t r = Ok (VNum t (r mod 2 ^ bits t)).
Proof. intros [->| ->]; reflexivity. Qed.

Lemma arith_overflow t r : basic t = true -> signed (result_type t) = true -> ~ fits (result_type t) r ->
  arith t r = Err UB.
Proof.
  intros B S F. unfold arith.
  assert (E : arith_type t = result_type t) by (destruct t; try discriminate; reflexivity).
  rewrite E. clear E. assert (B' : basic (result_type t) = true) by (destruct t; try discriminate; reflexivity).
  assert (N : result_type t <> TBool) by (destruct t; discriminate).
  assert (SS : stored_signed (result_type t) = true) by (destruct t; try discriminate; reflexivity).
  rewrite SS. destruct (in_range (result_type t) r) eqn:R; [|reflexivity].
  exfalso. apply F. apply (in_range_fits _ _ B' N). assumption.
Qed.

Lemma get_num t z : vget t (VNum t z) = Ok z.
Proof. unfold vget. destruct (lty_eqb_spec t t); congruence. Qed.

Lemma binary_num o t a b : basic t = true -> binary o (VNum t a) (VNum t b) = bop_apply o t a b.
Proof.
  intros B. unfold binary. cbn [type_of].
  destruct t; try discriminate; unfold vop; rewrite !get_num; reflexivity.
Qed.

Lemma quot_fits t a b : wide t = true -> fits t a -> fits t b -> b <> 0 ->
  ~ (signed t = true /\ a = - 2 ^ (bits t - 1) /\ b = -1) -> fits t (Z.quot a b).
Proof.
  intros W Fa Fb N X.
  assert (A : Z.abs (Z.quot a b) <= Z.abs a).
  { rewrite <- Z.quot_abs by assumption. apply Z.quot_le_upper_bound; nia. }
  assert (A2 : b <> -1 -> a < -1 -> Z.quot a b < - a).
  { intros Hb Ha. destruct (Z_lt_le_dec b 0).
    - pose proof (Z.quot_opp_opp a b ltac:(lia)) as E. rewrite <- E. apply Z.quot_lt; lia.
    - pose proof (Z.quot_opp_l (- a) b). assert (0 <= Z.quot (- a) b) by (apply Z.quot_pos; lia).
      replace (- - a) with a in * by lia. lia. }
  destruct t; try discriminate; unfold fits in *; cbn [signed bits] in *; pows;
    pose proof (Z.quot_pos a b); lia.
Qed.

Lemma rem_fits t a b : wide t = true -> fits t a -> fits t b -> b <> 0 -> fits t (Z.rem a b).
Proof.
  intros W Fa Fb N.
  assert (A : Z.abs (Z.rem a b) <= Z.abs a).
  { rewrite <- Z.rem_abs by assumption. apply Z.rem_le; lia. }
  pose proof (Z.rem_bound_abs a b N) as A2.
  destruct (Z_lt_le_dec a 0) as [L|L].
  - assert (Z.rem a b <= 0) by (apply Z.rem_nonpos; lia).
    destruct t; try discriminate; unfold fits in *; cbn [signed bits] in *; pows; lia.
  - assert (0 <= Z.rem a b) by (apply Z.rem_nonneg; lia).
    destruct t; try discriminate; unfold fits in *; cbn [signed bits] in *; pows; lia.
Qed.

(** An operation on two values of one type gives the mathematical result when it fits. *)
Lemma binary_exact o t a b r :
  basic t = true -> fits t a -> fits t b -> meaning o a b = Some r -> fits (result_type t) r ->
  ~ (o = Mod /\ signed t = true /\ wide t = true /\ a = - 2 ^ (bits t - 1) /\ b = -1) ->
  binary o (VNum t a) (VNum t b) = Ok (VNum (result_type t) r).
Proof.
  intros B Fa Fb M F X. rewrite binary_num by assumption. unfold bop_apply.
  destruct o; cbn [meaning] in M; try (injection M as <-; apply arith_ok; assumption).
  - destruct (Z.eqb_spec b 0); [discriminate|]. injection M as <-. apply arith_ok; assumption.
  - destruct (Z.eqb_spec b 0) as [|N]; [discriminate|]. injection M as <-.
    assert (E : arith_type t = result_type t) by (destruct t; try discriminate; reflexivity). rewrite E.
    assert (B' : basic (result_type t) = true) by (destruct t; try discriminate; reflexivity).
    assert (NB : result_type t <> TBool) by (destruct t; discriminate).
    assert (Q : fits (result_type t) (Z.quot a b)).
    { apply quot_fits.
      - destruct t; try discriminate; reflexivity.
      - destruct t; try discriminate; unfold fits in *; cbn [result_type wide signed bits] in *; pows; lia.
      - destruct t; try discriminate; unfold fits in *; cbn [result_type wide signed bits] in *; pows; lia.
      - assumption.
      - intros (S & Ea & Eb). destruct t; try discriminate; unfold fits in Fa;
          cbn [result_type wide signed bits] in *; pows; try lia; apply X; repeat split; assumption. }
    rewrite (proj2 (in_range_fits _ _ B' NB) Q). cbn [negb]. rewrite Bool.andb_false_r. apply arith_ok; assumption.
Qed.

Lemma binary_zero o t a : basic t = true -> o = Div \/ o = Mod ->
  binary o (VNum t a) (VNum t 0) = Err UB /\ binary o (VNum t a) VNull = Err UB.
Proof.
  intros B H. split.
  - rewrite binary_num by assumption. destruct H as [->| ->]; reflexivity.
  - unfold binary. cbn [type_of].
    destruct t; try discriminate; unfold vop; rewrite get_num; destruct H as [->| ->]; reflexivity.
Qed.

Lemma binary_mixed o t1 a t2 b : basic t1 = true -> basic t2 = true -> t1 <> t2 ->
  binary o (VNum t1 a) (VNum t2 b) = Err Throw.
Proof.
  intros B1 B2 N. unfold binary. cbn [type_of].
  assert (E : vop o t1 (VNum t1 a) (VNum t2 b) = Err Throw).
  { unfold vop. rewrite get_num. cbn [rbind]. unfold vget. destruct (lty_eqb_spec t2 t1); [congruence|]. reflexivity. }
  destruct t1; try discriminate; exact E.
Qed.

Lemma binary_null_add t a : wide t = true -> fits t a -> binary Add (VNum t a) VNull = Ok (VNum t a).
Proof.
  intros W F. unfold binary. cbn [type_of].
  assert (E : vop Add t (VNum t a) VNull = Ok (VNum t a)).
  { unfold vop. rewrite get_num. cbn [rbind bop_apply]. rewrite Z.add_0_r.
    rewrite arith_ok; destruct t; try discriminate; try reflexivity; assumption. }
  destruct t; try discriminate; exact E.
Qed.

(** ** Aggregates *)
Lemma fold_err {A B} (f : A -> B -> res A) l e :
  fold_left (fun acc o => do a <- acc; f a o) l (Err e) = Err e.
Proof. induction l; [reflexivity|assumption]. Qed.

Lemma value_num t rows o : In o rows -> basic t = true ->
  cell (num_column t rows) (option_map (VNum t) o) = VNum t (match o with Some z => z | None => 0 end).
Proof. intros _ B. destruct o; [reflexivity|]. destruct t; try discriminate; reflexivity. Qed.

Lemma vzero_num t : basic t = true -> vzero t = VNum t 0.
Proof. destruct t; try discriminate; reflexivity. Qed.

Lemma wide_basic t : wide t = true -> basic t = true.
Proof. destruct t; try discriminate; reflexivity. Qed.

Lemma wide_result t : wide t = true -> result_type t = t.
Proof. unfold result_type. intros ->. reflexivity. Qed.

Lemma sum_fold c t rows a : wide t = true -> ctype c = t ->
  (forall n, fits t (a + total (firstn n rows))) ->
  fold_left (fun acc o => do x <- acc; vsum x (cell c o)) (map (option_map (VNum t)) rows) (Ok (VNum t a)) =
  Ok (VNum t (a + total rows)).
Proof.
  intros W Ct. revert a. induction rows as [|o rows IH]; intros a F.
  - cbn. rewrite Z.add_0_r. reflexivity.
  - cbn [map fold_left rbind].
    assert (E : cell c (option_map (VNum t) o) = VNum t (match o with Some z => z | None => 0 end)).
    { destruct o; [reflexivity|]. cbn. rewrite Ct. apply vzero_num, wide_basic, W. }
    rewrite E. unfold vsum. rewrite binary_num by (apply wide_basic, W). cbn [bop_apply].
    rewrite arith_ok; [|apply wide_basic, W|].
    + rewrite (wide_result _ W). rewrite IH.
      * f_equal. f_equal. destruct o; cbn [total]; lia.
      * intros n. specialize (F (S n)). destruct o; cbn [firstn total] in F.
        -- rewrite <- Z.add_assoc. assumption.
        -- rewrite Z.add_0_r. assumption.
    + rewrite (wide_result _ W). specialize (F 1%nat). destruct o; cbn [firstn total] in F.
      * rewrite Z.add_0_r in F. assumption.
      * rewrite Z.add_0_r in *. assumption.
Qed.

Lemma sum_exact t rows : wide t = true -> no_overflow t rows ->
  agg_sum (num_column t rows) = Ok (VNum t (total rows)).
Proof.
  intros W F. unfold agg_sum. cbn [ctype crows num_column]. rewrite (vzero_num _ (wide_basic _ W)).
  rewrite (sum_fold (num_column t rows) t rows 0 W eq_refl); [reflexivity|exact F].
Qed.

Lemma sum_fold_unsigned c t rows a : t = TU32 \/ t = TU64 -> ctype c = t ->
  fits t a ->
  fold_left (fun acc o => do x <- acc; vsum x (cell c o)) (map (option_map (VNum t)) rows) (Ok (VNum t a)) =
  Ok (VNum t ((a + total rows) mod 2 ^ bits t)).
Proof.
  intros T Ct. assert (B : basic t = true) by (destruct T as [->| ->]; reflexivity).
  assert (P : 0 < 2 ^ bits t) by (destruct T as [->| ->]; reflexivity).
  assert (FF : forall z, fits t z <-> 0 <= z < 2 ^ bits t) by (destruct T as [->| ->]; reflexivity).
  revert a. induction rows as [|o rows IH]; intros a F.
  - cbn [map fold_left total]. rewrite Z.add_0_r, Z.mod_small; [reflexivity|]. apply FF, F.
  - cbn [map fold_left rbind].
    assert (E : cell c (option_map (VNum t) o) = VNum t (match o with Some z => z | None => 0 end)).
    { destruct o; [reflexivity|]. cbn. rewrite Ct. apply vzero_num, B. }
    rewrite E. unfold vsum. rewrite binary_num by assumption. cbn [bop_apply].
    rewrite (arith_unsigned t _ T). rewrite IH.
    + f_equal. f_equal. rewrite Zplus_mod_idemp_l. f_equal. destruct o; cbn [total]; lia.
    + apply FF. apply Z.mod_pos_bound. assumption.
Qed.

Lemma sum_unsigned t rows : t = TU32 \/ t = TU64 ->
  agg_sum (num_column t rows) = Ok (VNum t (total rows mod 2 ^ bits t)).
Proof.
  intros T. assert (B : basic t = true) by (destruct T as [->| ->]; reflexivity).
  unfold agg_sum. cbn [ctype crows num_column]. rewrite (vzero_num _ B).
  rewrite (sum_fold_unsigned (num_column t rows) t rows 0 T eq_refl).
  - reflexivity.
  - destruct T as [->| ->]; unfold fits; cbn; lia.
Qed.

(** The sum of a narrow column with at least two rows throws. *)
Lemma sum_narrow t r0 r1 rows : basic t = true -> wide t = false -> ok_rows t (r0 :: r1 :: rows) ->
  agg_sum (num_column t (r0 :: r1 :: rows)) = Err Throw.
Proof.
  intros B W O. unfold agg_sum. cbn [ctype crows num_column map fold_left rbind].
  rewrite (vzero_num _ B).
  assert (E : forall o, cell (num_column t (r0 :: r1 :: rows)) (option_map (VNum t) o) =
                        VNum t (match o with Some z => z | None => 0 end)).
  { intros [z|]; [reflexivity|]. cbn. apply vzero_num, B. }
  rewrite !E. unfold vsum at 2. rewrite binary_num by assumption. cbn [bop_apply].
  assert (F : fits (result_type t) (0 + match r0 with Some z => z | None => 0 end)).
  { destruct r0 as [z|].
    - specialize (O z (or_introl eq_refl)).
      destruct t; try discriminate; unfold fits in *; cbn [result_type wide signed bits] in *; pows; lia.
    - destruct t; try discriminate; unfold fits; cbn [result_type wide signed bits]; pows; lia. }
  rewrite (arith_ok _ _ B F). cbn [rbind]. unfold vsum at 2.
  rewrite binary_mixed.
  - apply fold_err.
  - destruct t; try discriminate; reflexivity.
  - assumption.
  - destruct t; try discriminate.
Qed.

(** ** Least and greatest *)
Lemma fold_min (le : lval -> lval -> Prop) (gt : lval -> lval -> bool) (P : lval -> Prop) :
  (forall x, P x -> le x x) ->
  (forall x y z, P x -> P y -> P z -> le x y -> le y z -> le x z) ->
  (forall x y, P x -> P y -> gt x y = true -> le y x) ->
  (forall x y, P x -> P y -> gt x y = false -> le x y) ->
  forall l v, P v -> Forall P l ->
  let m := fold_left (fun m v => if gt m v then v else m) l v in
  In m (v :: l) /\ (forall x, In x (v :: l) -> le m x).
Proof.
  intros R T G1 G2. induction l as [|w l IH]; intros v Pv Fl; cbn [fold_left].
  - split; [left; reflexivity|]. intros x [<-|[]]. apply R, Pv.
  - inversion Fl; subst. destruct (gt v w) eqn:E.
    + destruct (IH w ltac:(assumption) ltac:(assumption)) as [I L]. split; [right; assumption|].
      assert (Pm : P (fold_left (fun m v => if gt m v then v else m) l w)).
      { destruct I as [<-|I]; [assumption|]. eapply Forall_forall; eassumption. }
      intros x [<-|X]; [|apply L, X].
      apply (T _ w); auto. apply L. left. reflexivity.
    + destruct (IH v ltac:(assumption) ltac:(assumption)) as [I L].
      assert (Pm : P (fold_left (fun m v => if gt m v then v else m) l v)).
      { destruct I as [<-|I]; [assumption|]. eapply Forall_forall; eassumption. }
      split; [destruct I as [I|I]; [left|right; right]; assumption|].
      intros x [<-|[<-|X]].
      * apply L. left. reflexivity.
      * apply (T _ v); auto. apply L. left. reflexivity.
      * apply L. right. assumption.
Qed.

Lemma same_type_num t a b : basic t = true -> vltb (VNum t a) (VNum t b) = (a <? b).
Proof.
  intros B. unfold vltb, vlt, compare_with. cbn [type_of]. destruct (lty_eqb_spec t t); [|congruence].
  rewrite lt_same_num by assumption. reflexivity.
Qed.

Definition as_num (v : lval) : Z := match v with VNum _ z => z | _ => 0 end.

Lemma map_value_num t rows : map (cell (num_column t (map Some rows))) (map (option_map (VNum t)) (map Some rows)) =
  map (VNum t) rows.
Proof. rewrite !map_map. apply map_ext. reflexivity. Qed.

Lemma min_num t z rows : basic t = true ->
  exists m, agg_min (num_column t (map Some (z :: rows))) = VNum t m /\ In m (z :: rows) /\
            forall x, In x (z :: rows) -> m <= x.
Proof.
  intros B. unfold agg_min. cbn [crows num_column]. rewrite map_value_num. cbn [map].
  destruct (fold_min (fun a b => as_num a <= as_num b) vgtb (fun v => exists x, v = VNum t x)) with
    (l := map (VNum t) rows) (v := VNum t z) as [I L].
  - intros. lia.
  - intros. lia.
  - intros x y [a ->] [b ->]. unfold vgtb. rewrite same_type_num by assumption. cbn [as_num].
    rewrite Z.ltb_lt. lia.
  - intros x y [a ->] [b ->]. unfold vgtb. rewrite same_type_num by assumption. cbn [as_num].
    rewrite Z.ltb_ge. lia.
  - eexists. reflexivity.
  - apply Forall_forall. intros x X. apply in_map_iff in X. destruct X as (a & <- & _). eexists. reflexivity.
  - set (m := fold_left _ _ _) in *. change (VNum t z :: map (VNum t) rows) with (map (VNum t) (z :: rows)) in *.
    apply in_map_iff in I. destruct I as (x & E & I). exists x. split; [symmetry; assumption|]. split; [assumption|].
    intros y Y. rewrite <- E in L. apply (L (VNum t y)). apply in_map, Y.
Qed.

Lemma max_num t z rows : basic t = true ->
  exists m, agg_max (num_column t (map Some (z :: rows))) = VNum t m /\ In m (z :: rows) /\
            forall x, In x (z :: rows) -> x <= m.
Proof.
  intros B. unfold agg_max. cbn [crows num_column]. rewrite map_value_num. cbn [map].
  destruct (fold_min (fun a b => as_num b <= as_num a) vltb (fun v => exists x, v = VNum t x)) with
    (l := map (VNum t) rows) (v := VNum t z) as [I L].
  - intros. lia.
  - intros. lia.
  - intros x y [a ->] [b ->]. rewrite same_type_num by assumption. cbn [as_num].
    rewrite Z.ltb_lt. lia.
  - intros x y [a ->] [b ->]. rewrite same_type_num by assumption. cbn [as_num].
    rewrite Z.ltb_ge. lia.
  - eexists. reflexivity.
  - apply Forall_forall. intros x X. apply in_map_iff in X. destruct X as (a & <- & _). eexists. reflexivity.
  - set (m := fold_left _ _ _) in *. change (VNum t z :: map (VNum t) rows) with (map (VNum t) (z :: rows)) in *.
    apply in_map_iff in I. destruct I as (x & E & I). exists x. split; [symmetry; assumption|]. split; [assumption|].
    intros y Y. rewrite <- E in L. apply (L (VNum t y)). apply in_map, Y.
Qed.

(** A column is handled as if its NULLs were zeros. *)
Definition null_as_zero (o : option Z) : option Z := Some (match o with Some z => z | None => 0 end).

Lemma values_null_as_zero t rows : basic t = true ->
  map (cell (num_column t rows)) (crows (num_column t rows)) =
  map (cell (num_column t (map null_as_zero rows))) (crows (num_column t (map null_as_zero rows))).
Proof.
  intros B. cbn [crows num_column]. rewrite !map_map. apply map_ext. intros [z|]; [reflexivity|].
  cbn. apply vzero_num, B.
Qed.

Lemma min_null_zero t rows : basic t = true -> In None rows -> (forall z, In (Some z) rows -> 0 < z) ->
  agg_min (num_column t rows) = VNum t 0.
Proof.
  intros B N P. unfold agg_min. rewrite values_null_as_zero by assumption. fold (agg_min (num_column t (map null_as_zero rows))).
  set (nums := map (fun o => match o with Some z => z | None => 0 end) rows).
  assert (E : map null_as_zero rows = map Some nums) by (unfold nums; rewrite map_map; reflexivity).
  rewrite E. assert (Z0 : In 0 nums) by (unfold nums; apply in_map_iff; exists None; split; [reflexivity|assumption]).
  assert (POS : forall z, In z nums -> 0 <= z).
  { intros z Z. unfold nums in Z. apply in_map_iff in Z. destruct Z as ([y|] & <- & Z); [|lia]. specialize (P y Z). lia. }
  destruct nums as [|z l]; [destruct Z0|].
  destruct (min_num t z l B) as (m & -> & I & L). f_equal. specialize (L 0 Z0). specialize (POS m I). lia.
Qed.

Lemma binary_null o t a : basic t = true ->
  binary o VNull (VNum t a) = binary o (VNum t 0) (VNum t a) /\ binary o (VNum t a) VNull = binary o (VNum t a) (VNum t 0) /\
  (wide t = true -> fits t a -> binary Add (VNum t a) VNull = Ok (VNum t a)).
Proof.
  intros B. split; [|split; [|intros W F; apply binary_null_add; assumption]]; destruct t; try discriminate B; reflexivity.
Qed.
