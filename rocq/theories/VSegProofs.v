From Coq Require Import ZifyNat ZifyN ZifyBool.
From Verif Require Import Bytes Outcome ValidModel ValidSpec ValidProofs VSegModel VSegSpec.
Ltac Zify.zify_post_hook ::= Z.div_mod_to_equations.
Local Open Scope nat_scope.
Local Opaque N.testbit MAX_ENTRY.

Definition tb (ws : list N) (j : nat) : bool := N.testbit (nth (j / 64) ws 0%N) (N.of_nat (j mod 64)).
Definition W (m : rmask) : list N := words_of m.
Definition rok (m : rmask) : Prop := r_count m <= length (W m) /\ Forall w64 (W m).

Lemma rok_of m : rmask_ok m -> rok m.
Proof.
  unfold rmask_ok, rok, W, words_of. destruct (r_words m); intros H; [exact H|].
  split; [unfold fresh; rewrite repeat_length; lia | apply fresh_w64].
Qed.
Lemma rvalid_tb m j : rok m -> j < r_count m -> rvalid m j = tb (W m) j.
Proof.
  intros [L F] H. unfold rvalid, tb, W, words_of. destruct (r_words m) as [ws|]; [reflexivity|].
  rewrite fresh_nth by lia. rewrite tb_max. lia.
Qed.

Lemma tb_upd ws i w j : i < length ws -> tb (upd i w ws) j = if j / 64 =? i then N.testbit w (N.of_nat (j mod 64)) else tb ws j.
Proof. intros H. unfold tb. rewrite upd_nth by exact H. destruct (j / 64 =? i); reflexivity. Qed.
Lemma tb_at ws q k : k < 64 -> N.testbit (nth q ws 0%N) (N.of_nat k) = tb ws (64 * q + k).
Proof. intros H. unfold tb. f_equal; [f_equal; lia | f_equal; lia]. Qed.
Lemma upd_w64 i w ws : w64 w -> Forall w64 ws -> Forall w64 (upd i w ws).
Proof. intros A F. revert i. induction F as [|x l X F IH]; intros [|i]; cbn; constructor; auto. Qed.
Lemma nth_w64 ws i : Forall w64 ws -> w64 (nth i ws 0%N).
Proof.
  intros F. destruct (Nat.lt_ge_cases i (length ws)).
  - rewrite Forall_forall in F. apply F. apply nth_In. assumption.
  - rewrite nth_overflow by assumption. reflexivity.
Qed.
Lemma nth_error_nth' {A} (l : list A) i d : i < length l -> nth_error l i = Some (nth i l d).
Proof. revert i. induction l as [|x l IH]; intros [|i] H; cbn in *; try lia; auto. apply IH. lia. Qed.

Lemma clear_ok ws row : Forall w64 ws -> row < 64 * length ws ->
  exists ws', clear ws row = Ok ws' /\ length ws' = length ws /\ Forall w64 ws' /\
    forall j, tb ws' j = tb ws j && negb (j =? row).
Proof.
  intros F H. unfold clear. change BITS with 64. rewrite (nth_error_nth' ws (row / 64) 0%N) by lia.
  eexists. split; [reflexivity|]. split; [apply upd_length|]. split.
  - apply upd_w64; [|exact F]. apply w64_land. apply nth_w64. exact F.
  - intros j. rewrite tb_upd by lia. destruct (Nat.eqb_spec (j / 64) (row / 64)) as [E|E].
    + rewrite N.land_spec, tb_bnot, tb_bit by lia. unfold tb. rewrite E. f_equal. lia.
    + replace (j =? row) with false by lia. cbn. rewrite andb_true_r. reflexivity.
Qed.
Lemma is_set_ok ws row : row < 64 * length ws -> is_set ws row = Ok (tb ws row).
Proof.
  intros H. unfold is_set. change BITS with 64. rewrite (nth_error_nth' ws (row / 64) 0%N) by lia.
  rewrite land_bit_zero, negb_involutive by lia. reflexivity.
Qed.

Lemma fetch_row_ok g row m idx : rok m -> idx < r_count m -> row < 64 * length (g_words g) ->
  exists m', fetch_row g row m idx = Ok m' /\ rok m' /\ r_count m' = r_count m /\
    forall j, tb (W m') j = tb (W m) j && (negb (j =? idx) || tb (g_words g) row).
Proof.
  intros [L F] Hi H. unfold fetch_row. rewrite is_set_ok by exact H. cbn [rbind].
  destruct (tb (g_words g) row) eqn:E.
  - exists m. repeat split; auto. intros j. rewrite orb_true_r, andb_true_r. reflexivity.
  - unfold r_set_invalid. fold (W m). destruct (clear_ok (W m) idx F ltac:(lia)) as (ws' & -> & Ll & F' & B). cbn [rbind].
    eexists. split; [reflexivity|]. unfold rok, W, words_of. cbn [r_words r_count].
    split; [split; [lia | exact F']|]. split; [reflexivity|]. intros j. rewrite B, orb_false_r. reflexivity.
Qed.

Lemma tb_upper n k : n <= 64 -> N.testbit (UPPER n) k = (k <? 64)%N && (N.of_nat (64 - n) <=? k)%N.
Proof. intros H. unfold UPPER. change BITS with 64. rewrite tb_shl, tb_max. lia. Qed.
Lemma tb_lower n k : n <= 64 -> N.testbit (LOWER n) k = (k <? N.of_nat n)%N.
Proof. intros H. unfold LOWER. change BITS with 64. rewrite tb_shr, tb_max. lia. Qed.
Lemma w64_high w k : w64 w -> (64 <= k)%N -> N.testbit w k = false.
Proof. intros H. apply lt64_bits. exact H. Qed.
Lemma bits64_eq a b : w64 a -> w64 b -> (forall k, k < 64 -> N.testbit a (N.of_nat k) = N.testbit b (N.of_nat k)) -> a = b.
Proof.
  intros A B H. apply N.bits_inj. intros k. destruct (N.lt_ge_cases k 64).
  - specialize (H (N.to_nat k) ltac:(lia)). rewrite N2Nat.id in H. exact H.
  - rewrite !w64_high by assumption. reflexivity.
Qed.

(** Bits of the word that is and-ed to the result in one round. *)
Definition round_mask (w : N) (ri ii : nat) : N :=
  if ri <? ii then N.lor (shr w (ii - ri)) (UPPER (ii - ri))
  else if ii <? ri then N.lor (shl (N.land w (bnot (UPPER (ri - ii)))) (ri - ii)) (LOWER (ri - ii))
  else w.
Lemma round_mask_bits w ri ii k : w64 w -> ri < 64 -> ii < 64 -> (ri = 0 \/ ii = 0) -> k < 64 ->
  N.testbit (round_mask w ri ii) (N.of_nat k) =
  if k <? ri then true else if k <? ri + (64 - Nat.max ri ii) then N.testbit w (N.of_nat (k - ri + ii)) else true.
Proof.
  intros Hw Hr Hi O Hk. unfold round_mask. destruct (Nat.ltb_spec ri ii).
  - assert (ri = 0) by lia. subst ri. replace (k <? 0) with false by lia.
    rewrite N.lor_spec, tb_shr, tb_upper by lia. replace (Nat.max 0 ii) with ii by lia. replace (ii - 0) with ii by lia.
    destruct (Nat.ltb_spec k (0 + (64 - ii))).
    + replace (N.of_nat k + N.of_nat ii)%N with (N.of_nat (k - 0 + ii)) by lia.
      replace ((N.of_nat k <? 64)%N && (N.of_nat (64 - ii) <=? N.of_nat k)%N) with false by lia. apply orb_false_r.
    + rewrite w64_high by (auto; lia). lia.
  - destruct (Nat.ltb_spec ii ri).
    + assert (ii = 0) by lia. subst ii. rewrite N.lor_spec, tb_shl, N.land_spec, tb_bnot, tb_upper, tb_lower by lia.
      destruct (Nat.ltb_spec k ri); [lia|]. replace (k <? ri + (64 - Nat.max ri 0)) with true by lia.
      replace (N.of_nat k - N.of_nat (ri - 0))%N with (N.of_nat (k - ri + 0)) by lia.
      destruct (N.testbit w (N.of_nat (k - ri + 0))); lia.
    + assert (ri = 0) by lia. assert (ii = 0) by lia. subst. replace (k <? 0) with false by lia.
      replace (k <? 0 + (64 - Nat.max 0 0)) with true by lia. f_equal. lia.
Qed.
Lemma w64_upper n : w64 (UPPER n). Proof. apply w64_shl. Qed.
Lemma w64_lower n : w64 (LOWER n). Proof. apply w64_shr. reflexivity. Qed.
Lemma round_mask_w64 w ri ii : w64 w -> w64 (round_mask w ri ii).
Proof.
  intros H. unfold round_mask. destruct (ri <? ii); [apply w64_lor; [apply w64_shr; exact H | apply w64_upper]|].
  destruct (ii <? ri); [apply w64_lor; [apply w64_shl | apply w64_lower]|exact H].
Qed.

Definition rk (ri ii : nat) : nat := 64 - Nat.max ri ii.
(** One round, in a form without cases. *)
Lemma partial_step f ws m re ri ie ii pos n : ri < 64 -> ii < 64 -> (ri = 0 \/ ii = 0) ->
  pos < n -> ie < length ws ->
  partial_loop (S f) ws m re ri ie ii pos n =
  let mask := round_mask (nth ie ws 0%N) ri ii in
  let pos' := pos + rk ri ii in
  let mask' := if n <? pos' then N.lor mask (UPPER (pos' - n)) else mask in
  do m' <- (if (mask' =? MAX_ENTRY)%N then Ok m
            else match nth_error (words_of m) re with
                 | None => Err UB
                 | Some r => Ok (RMask (Some (upd re (N.land r mask') (words_of m))) (r_count m))
                 end);
  partial_loop f ws m' ((64 * re + ri + rk ri ii) / 64) ((64 * re + ri + rk ri ii) mod 64)
               ((64 * ie + ii + rk ri ii) / 64) ((64 * ie + ii + rk ri ii) mod 64) pos' n.
Proof.
  intros Hr Hi O Hp Hl. cbn [partial_loop]. replace (n <=? pos) with false by lia.
  rewrite (nth_error_nth' ws ie 0%N) by exact Hl. unfold round_mask, rk. change BITS with 64.
  destruct (Nat.ltb_spec ri ii).
  - assert (ri = 0) by lia. subst ri. replace (Nat.max 0 ii) with ii by lia.
    replace ((64 * re + 0 + (64 - ii)) / 64) with re by lia. replace ((64 * re + 0 + (64 - ii)) mod 64) with (0 + (64 - ii)) by lia.
    replace ((64 * ie + ii + (64 - ii)) / 64) with (S ie) by lia. replace ((64 * ie + ii + (64 - ii)) mod 64) with 0 by lia. reflexivity.
  - destruct (Nat.ltb_spec ii ri).
    + assert (ii = 0) by lia. subst ii. replace (Nat.max ri 0) with ri by lia.
      replace ((64 * re + ri + (64 - ri)) / 64) with (S re) by lia. replace ((64 * re + ri + (64 - ri)) mod 64) with 0 by lia.
      replace ((64 * ie + 0 + (64 - ri)) / 64) with ie by lia. replace ((64 * ie + 0 + (64 - ri)) mod 64) with (0 + (64 - ri)) by lia. reflexivity.
    + assert (ri = 0) by lia. assert (ii = 0) by lia. subst. replace (Nat.max 0 0) with 0 by lia.
      replace ((64 * re + 0 + (64 - 0)) / 64) with (S re) by lia. replace ((64 * re + 0 + (64 - 0)) mod 64) with 0 by lia.
      replace ((64 * ie + 0 + (64 - 0)) / 64) with (S ie) by lia. replace ((64 * ie + 0 + (64 - 0)) mod 64) with 0 by lia. reflexivity.
Qed.

Lemma partial_loop_ok ws start ro n : Forall w64 ws -> start + n <= 64 * length ws ->
  forall f m pos, rok m -> ro + n <= r_count m -> n <= pos + f ->
  ((ro + pos) mod 64 = 0 \/ (start + pos) mod 64 = 0) ->
  exists m', partial_loop f ws m ((ro + pos) / 64) ((ro + pos) mod 64) ((start + pos) / 64) ((start + pos) mod 64) pos n = Ok m' /\
    rok m' /\ r_count m' = r_count m /\
    (forall j, j < ro + n -> tb (W m') j = tb (W m) j && (if ro + pos <=? j then tb ws (start + (j - ro)) else true)) /\
    (forall j, ro + n <= j -> tb (W m') j = tb (W m) j \/
       (tb (W m') j = tb (W m) j && tb ws (start + (j - ro)) /\ start + (j - ro) < 64 * length ws)).
Proof.
  intros Fw Hs. induction f as [|f IH]; intros m pos Hm Hc Hf O.
  - cbn [partial_loop]. replace (n <=? pos) with true by lia. exists m. split; [reflexivity|]. split; [exact Hm|]. split; [reflexivity|].
    split; [|intros; left; reflexivity]. intros j Hj. replace (ro + pos <=? j) with false by lia. rewrite andb_true_r. reflexivity.
  - destruct (Nat.le_gt_cases n pos) as [Hp|Hp].
    + cbn [partial_loop]. replace (n <=? pos) with true by lia. exists m. split; [reflexivity|]. split; [exact Hm|]. split; [reflexivity|].
      split; [|intros; left; reflexivity]. intros j Hj. replace (ro + pos <=? j) with false by lia. rewrite andb_true_r. reflexivity.
    + rewrite partial_step by (try exact O; lia). cbv zeta.
      set (re := (ro + pos) / 64). set (ri := (ro + pos) mod 64). set (ie := (start + pos) / 64). set (ii := (start + pos) mod 64).
      assert (E1 : 64 * re + ri = ro + pos) by lia. assert (E2 : 64 * ie + ii = start + pos) by lia.
      assert (Lr : ri < 64) by lia. assert (Li : ii < 64) by lia. assert (O' : ri = 0 \/ ii = 0) by exact O.
      assert (K : rk ri ii = 64 - Nat.max ri ii) by reflexivity.
      set (pos' := pos + rk ri ii). rewrite E1, E2.
      replace (ro + pos + rk ri ii) with (ro + pos') by lia. replace (start + pos + rk ri ii) with (start + pos') by lia.
      set (mask' := if n <? pos' then _ else _).
      assert (Wm : w64 (nth ie ws 0%N)) by (apply nth_w64; exact Fw).
      assert (Wk : w64 mask').
      { unfold mask'. destruct (n <? pos'); [apply w64_lor; [|apply w64_upper]|]; apply round_mask_w64; exact Wm. }
      assert (B1 : forall k, k < 64 -> 64 * re + k < ro + n ->
                N.testbit mask' (N.of_nat k) = if (ro + pos <=? 64 * re + k) && (64 * re + k <? ro + pos') then tb ws (start + (64 * re + k - ro)) else true).
      { intros k Hk Hj. unfold mask'. assert (X : N.testbit (round_mask (nth ie ws 0%N) ri ii) (N.of_nat k) =
          if (ro + pos <=? 64 * re + k) && (64 * re + k <? ro + pos') then tb ws (start + (64 * re + k - ro)) else true).
        { rewrite round_mask_bits by assumption. rewrite <- K. destruct (Nat.ltb_spec k ri).
          - replace (ro + pos <=? 64 * re + k) with false by lia. reflexivity.
          - replace (ro + pos <=? 64 * re + k) with true by lia. destruct (Nat.ltb_spec k (ri + rk ri ii)).
            + replace (64 * re + k <? ro + pos') with true by lia. cbn [andb]. rewrite tb_at by lia. f_equal. lia.
            + replace (64 * re + k <? ro + pos') with false by lia. reflexivity. }
        destruct (Nat.ltb_spec n pos'); [|exact X]. rewrite N.lor_spec, X, tb_upper by lia.
        replace ((N.of_nat k <? 64)%N && (N.of_nat (64 - (pos' - n)) <=? N.of_nat k)%N) with false; [apply orb_false_r|].
        destruct O' as [Z|Z]; lia. }
      assert (B2 : forall k, k < 64 -> ro + n <= 64 * re + k ->
                N.testbit mask' (N.of_nat k) = true \/
                (N.testbit mask' (N.of_nat k) = tb ws (start + (64 * re + k - ro)) /\ start + (64 * re + k - ro) < 64 * length ws)).
      { intros k Hk Hj. unfold mask'. assert (X : N.testbit (round_mask (nth ie ws 0%N) ri ii) (N.of_nat k) = true \/
                (N.testbit (round_mask (nth ie ws 0%N) ri ii) (N.of_nat k) = tb ws (start + (64 * re + k - ro)) /\ start + (64 * re + k - ro) < 64 * length ws)).
        { rewrite round_mask_bits by assumption. rewrite <- K. destruct (Nat.ltb_spec k ri); [left; reflexivity|].
          destruct (Nat.ltb_spec k (ri + rk ri ii)); [right|left; reflexivity]. split; [|lia]. rewrite tb_at by lia. f_equal. lia. }
        destruct (Nat.ltb_spec n pos'); [|exact X]. rewrite N.lor_spec.
        destruct (N.testbit (UPPER (pos' - n)) (N.of_nat k)); [left; apply orb_true_r|]. rewrite orb_false_r. exact X. }
      (* the result after this round *)
      assert (M : exists m1, (if (mask' =? MAX_ENTRY)%N then Ok m
            else match nth_error (words_of m) re with
                 | None => Err UB
                 | Some r => Ok (RMask (Some (upd re (N.land r mask') (words_of m))) (r_count m))
                 end) = Ok m1 /\ rok m1 /\ r_count m1 = r_count m /\
            forall j, tb (W m1) j = tb (W m) j && (if j / 64 =? re then N.testbit mask' (N.of_nat (j mod 64)) else true)).
      { destruct (N.eqb_spec mask' MAX_ENTRY) as [E|E].
        - exists m. split; [reflexivity|]. split; [exact Hm|]. split; [reflexivity|]. intros j. rewrite E, tb_max.
          replace (if j / 64 =? re then (N.of_nat (j mod 64) <? 64)%N else true) with true; [rewrite andb_true_r; reflexivity|].
          destruct (j / 64 =? re); lia.
        - destruct Hm as [Lm Fm]. unfold W in Lm, Fm. rewrite (nth_error_nth' (words_of m) re 0%N) by lia.
          eexists. split; [reflexivity|]. unfold rok, W. cbn [words_of r_words r_count].
          split; [split; [rewrite upd_length; exact Lm | apply upd_w64; [apply w64_land; apply nth_w64; exact Fm | exact Fm]]|].
          split; [reflexivity|]. intros j. change (words_of (RMask ?a ?b)) with (upd re (N.land (nth re (words_of m) 0%N) mask') (words_of m)).
          rewrite tb_upd by lia. destruct (Nat.eqb_spec (j / 64) re) as [X|X].
          + rewrite N.land_spec. unfold tb. rewrite X. reflexivity.
          + rewrite andb_true_r. reflexivity. }
      destruct M as (m1 & -> & Hm1 & Hc1 & B). cbn [rbind].
      assert (Hk1 : 1 <= rk ri ii) by lia.
      destruct (IH m1 pos') as (m' & Em & Hm' & Hc' & A1 & A2); [exact Hm1 | lia | lia | destruct O'; lia |].
      exists m'. split; [exact Em|]. split; [exact Hm'|]. split; [lia|]. split.
      * intros j Hj. rewrite A1 by exact Hj. rewrite B. rewrite <- andb_assoc. f_equal.
        destruct (Nat.eqb_spec (j / 64) re) as [X|X].
        -- rewrite B1 by lia. replace (64 * re + j mod 64) with j by lia.
           destruct (Nat.leb_spec (ro + pos') j).
           ++ replace (j <? ro + pos') with false by lia. rewrite andb_false_r. cbn [andb]. replace (ro + pos <=? j) with true by lia. reflexivity.
           ++ replace (j <? ro + pos') with true by lia. rewrite !andb_true_r. destruct (ro + pos <=? j); reflexivity.
        -- cbn [andb]. destruct (Nat.leb_spec (ro + pos') j); [replace (ro + pos <=? j) with true by lia; reflexivity|].
           replace (ro + pos <=? j) with false; [reflexivity|]. destruct O'; lia.
      * intros j Hj. assert (C : tb (W m1) j = tb (W m) j \/ (tb (W m1) j = tb (W m) j && tb ws (start + (j - ro)) /\ start + (j - ro) < 64 * length ws)).
        { rewrite B. destruct (Nat.eqb_spec (j / 64) re) as [X|X]; [|left; apply andb_true_r].
          destruct (B2 (j mod 64)) as [Y|[Y Z]]; [lia|lia| |].
          - rewrite Y. left. apply andb_true_r.
          - right. rewrite Y. replace (64 * re + j mod 64) with j in * by lia. split; [reflexivity|exact Z]. }
        destruct (A2 j Hj) as [P|[P Q]]; destruct C as [C|[C D]]; rewrite P, C.
        -- left. reflexivity.
        -- right. split; [reflexivity|exact D].
        -- right. split; [reflexivity|exact Q].
        -- right. rewrite <- andb_assoc, andb_diag. split; [reflexivity|exact D].
Qed.

Lemma scan_partial_ok g start n m ro : Forall w64 (g_words g) -> start + n <= 64 * length (g_words g) -> rok m -> ro + n <= r_count m ->
  (ro mod 64 = 0 \/ start mod 64 = 0) ->
  exists m', scan_partial g start n m ro = Ok m' /\ rok m' /\ r_count m' = r_count m /\
    (forall j, j < ro + n -> tb (W m') j = tb (W m) j && (if ro <=? j then tb (g_words g) (start + (j - ro)) else true)) /\
    (forall j, ro + n <= j -> tb (W m') j = tb (W m) j \/
       (tb (W m') j = tb (W m) j && tb (g_words g) (start + (j - ro)) /\ start + (j - ro) < 64 * length (g_words g))).
Proof.
  intros F H Hm Hc O. unfold scan_partial. change BITS with 64.
  destruct (partial_loop_ok (g_words g) start ro n F H n m 0 Hm Hc ltac:(lia) ltac:(rewrite !Nat.add_0_r; exact O)) as (m' & E & R).
  rewrite !Nat.add_0_r in E. replace (ro - ro / 64 * 64) with (ro mod 64) by lia. replace (start - start / 64 * 64) with (start mod 64) by lia.
  exists m'. split; [exact E|]. setoid_rewrite Nat.add_0_r in R. exact R.
Qed.
