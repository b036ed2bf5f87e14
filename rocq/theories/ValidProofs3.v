From Verif Require Import Bytes Outcome ValidModel ValidSpec ValidProofs ValidProofs2.
From Coq Require Import ZifyBool ZifyNat ZifyN.
Local Open Scope nat_scope.
Ltac Zify.zify_post_hook ::= Z.div_mod_to_equations.

(** ** Counting *)
Fixpoint popp (p : positive) : nat := match p with xH => 1 | xO q => popp q | xI q => S (popp q) end.
Definition pop (w : N) : nat := match w with N0 => 0 | Npos p => popp p end.
Lemma land_double a b : N.land (N.double a) (N.succ_double b) = N.double (N.land a b).
Proof.
  apply N.bits_inj. intros k. rewrite N.land_spec, !N.double_spec, N.succ_double_spec.
  destruct (N.eq_dec k 0) as [->|Hk].
  - rewrite !N.testbit_even_0. reflexivity.
  - rewrite <- (N.succ_pred k Hk), !N.testbit_even_succ, N.testbit_odd_succ, N.land_spec by lia. reflexivity.
Qed.
Lemma pop_double a : pop (N.double a) = pop a.
Proof. destruct a; reflexivity. Qed.
Lemma pop_step p : pop (N.land (Npos p) (Npos p - 1)) = popp p - 1.
Proof.
  induction p as [p IH|p IH|]; [| |reflexivity].
  - replace (N.pos p~1 - 1)%N with (N.pos p~0) by lia.
    assert (E : N.land (N.pos p~1) (N.pos p~0) = N.pos p~0).
    { change (N.double (N.land (N.pos p) (N.pos p)) = N.pos p~0). rewrite N.land_diag. reflexivity. }
    rewrite E. cbn. lia.
  - replace (N.pos p~0) with (N.double (N.pos p)) by reflexivity.
    replace (N.double (N.pos p) - 1)%N with (N.succ_double (N.pos p - 1)) by (rewrite N.double_spec, N.succ_double_spec; lia).
    rewrite land_double, pop_double, IH. reflexivity.
Qed.
Lemma popp_pos p : 1 <= popp p. Proof. induction p; cbn; lia. Qed.
Lemma popcount_ok fuel : forall w acc, pop w <= fuel -> popcount fuel w acc = Ok (acc + N.of_nat (pop w))%N.
Proof.
  induction fuel as [|f IH]; intros [|p] acc H.
  - cbn. f_equal. lia. - cbn in H. pose proof (popp_pos p). lia.
  - cbn. f_equal. lia.
  - cbn [popcount]. replace (N.pos p =? 0)%N with false by lia. pose proof (popp_pos p) as P.
    cbn [pop] in *. rewrite IH; rewrite pop_step; [f_equal; lia|lia].
Qed.
Lemma filter_map_length {A B} (f : B -> bool) (g : A -> B) l :
  length (filter f (map g l)) = length (filter (fun x => f (g x)) l).
Proof. induction l as [|x l IH]; cbn; [reflexivity|]. destruct (f (g x)); cbn; rewrite IH; reflexivity. Qed.
Lemma filter_ext_len {A} (f g : A -> bool) l : (forall x, In x l -> f x = g x) -> length (filter f l) = length (filter g l).
Proof.
  induction l as [|x l IH]; intros H; [reflexivity|]. cbn. rewrite (H x (or_introl eq_refl)).
  assert (E : length (filter f l) = length (filter g l)) by (apply IH; intros y Hy; apply H; right; exact Hy).
  destruct (g x); cbn; rewrite E; reflexivity.
Qed.
Lemma pop_half w : pop w = (if N.odd w then 1 else 0) + pop (N.div2 w).
Proof. destruct w as [|[p|p|]]; reflexivity. Qed.
Lemma pop_filter n : forall w, (w < 2 ^ N.of_nat n)%N -> pop w = length (filter (fun k => N.testbit w (N.of_nat k)) (seq 0 n)).
Proof.
  induction n as [|n IH]; intros w H.
  - assert (w = 0%N) as -> by (cbn in H; lia). reflexivity.
  - rewrite pop_half, IH.
    2:{ rewrite N.div2_div. rewrite Nat2N.inj_succ, N.pow_succ_r' in H. lia. }
    cbn [seq filter]. rewrite <- seq_shift, N.bit0_odd.
    assert (E : length (filter (fun k => N.testbit w (N.of_nat k)) (map S (seq 0 n))) =
                length (filter (fun k => N.testbit (N.div2 w) (N.of_nat k)) (seq 0 n))).
    { rewrite filter_map_length. apply filter_ext_len. intros k _. rewrite N.div2_spec, N.shiftr_spec', Nat2N.inj_succ. f_equal. lia. }
    destruct (N.odd w); cbn [length]; rewrite E; reflexivity.
Qed.
Lemma filter_seq_shift (f : nat -> bool) s n : length (filter f (seq s n)) = length (filter (fun k => f (s + k)) (seq 0 n)).
Proof.
  revert s f. induction n as [|n IH]; intros s f; [reflexivity|]. cbn [seq filter]. rewrite Nat.add_0_r.
  assert (E : length (filter f (seq (S s) n)) = length (filter (fun k => f (s + k)) (seq 1 n))).
  { rewrite IH. rewrite (IH 1 (fun k => f (s + k))). apply filter_ext_len. intros k _. f_equal. lia. }
  destruct (f s); cbn [length]; rewrite E; reflexivity.
Qed.
Lemma pop_word h a i n : arr h a n -> pop (wd h a i) = length (filter (rowb h a) (seq (64 * i) 64)).
Proof.
  intros A. rewrite (pop_filter 64) by (apply (arr_w64 h a n i A)). rewrite (filter_seq_shift (rowb h a) (64 * i)). apply filter_ext_len.
  intros k Hk. apply in_seq in Hk. symmetry. apply rowb_at. lia.
Qed.

Lemma count_loop_ok h a n q count : arr h a n -> q <= n -> count mod 64 = 0 -> forall k i acc, i + k = q ->
  count_loop k i q count h a acc = Ok (acc + N.of_nat (length (filter (rowb h a) (seq (64 * i) (64 * k)))))%N.
Proof.
  intros A Hq C. induction k as [|k IH]; intros i acc Hik.
  - cbn [count_loop]. rewrite Nat.mul_0_r. cbn. f_equal. lia.
  - cbn [count_loop]. erewrite rdw_ok; [|exact A|lia]. cbn [rbind]. change BITS with 64. rewrite C. cbn [Nat.eqb negb]. rewrite andb_false_r.
    replace (64 * S k) with (64 + 64 * k) by lia. rewrite seq_app, filter_app, app_length, <- (pop_word h a i n A).
    replace (64 * i + 64) with (64 * S i) by lia.
    destruct (N.eqb_spec (wd h a i) MAX_ENTRY) as [E|E].
    + rewrite IH by lia. rewrite E. change (pop MAX_ENTRY) with 64. f_equal. lia.
    + rewrite popcount_ok.
      * cbn [rbind]. rewrite IH by lia. f_equal. lia.
      * rewrite (pop_filter 64) by (apply (arr_w64 h a n i A)).
        assert (X : forall (f : nat -> bool) l, length (filter f l) <= length l).
        { clear. intros f l. induction l as [|x l IH]; cbn; [lia|]. destruct (f x); cbn; lia. }
        etransitivity; [apply X|]. rewrite seq_length. lia.
Qed.

Lemma count_valid_spec h m count : mask_ok h m -> count <= mcnt m -> mptr m = None \/ count mod 64 = 0 ->
  count_valid h m count = Ok (valid_rows h m count).
Proof.
  intros M H G. unfold count_valid, valid_rows. destruct (mptr m) as [a|] eqn:E.
  - destruct (mask_ok_arr _ _ _ M E) as (n & Ln & A). destruct G as [G|G]; [discriminate|].
    destruct (Nat.eqb_spec count 0) as [->|Hc]; [reflexivity|].
    assert (EC : entry_count count = count / 64) by (unfold entry_count; change BITS with 64; lia). rewrite EC.
    rewrite (count_loop_ok h a n) by (auto; lia). f_equal. rewrite N.add_0_l. f_equal.
    replace (64 * (count / 64)) with count by lia. apply filter_ext_len. intros j _. symmetry. apply valid_some. exact E.
  - f_equal. f_equal. rewrite <- (seq_length count 0) at 1. f_equal. symmetry.
    assert (X : forall l, filter (valid h m) l = l). { induction l as [|x l IH]; [reflexivity|]. cbn. rewrite valid_none by exact E. rewrite IH. reflexivity. }
    apply X.
Qed.

(** ** Slices *)
Lemma unsh_o h m o a : mask_ok h o -> unshared m o -> mptr o = Some a -> a < length h /\ Some a <> mptr m.
Proof.
  intros O U E. destruct (mask_ok_arr _ _ _ O E) as (n & _ & A). split; [eapply arr_lt; eauto|]. intros X. apply (U a); auto.
Qed.
Lemma post_other h h' m m' o : post h h' m m' -> mask_ok h o -> unshared m o ->
  mask_ok h' o /\ (forall j, valid h' o j = valid h o j) /\ unshared m' o.
Proof.
  intros (P1 & P2 & (P3 & P3') & P4 & P5) O U. destruct (mptr o) as [a|] eqn:E.
  - destruct (unsh_o _ _ _ _ O U E) as [La Na]. pose proof (P3' a La Na) as F. split; [|split].
    + unfold mask_ok in *. rewrite E in *. rewrite F. exact O.
    + intros j. unfold valid, words. rewrite E, F. reflexivity.
    + intros c Hc X. rewrite E in X. injection X as <-. destruct (mptr m) as [q|] eqn:Em.
      * rewrite P4 in Hc by discriminate. congruence.
      * apply (P5 eq_refl a La). exact Hc.
  - split; [|split].
    + unfold mask_ok. rewrite E. exact I.
    + intros j. rewrite !valid_none by exact E. reflexivity.
    + intros c _. congruence.
Qed.
Lemma post_refl h m : mask_ok h m -> post h h m m.
Proof. intros M. unfold post, untouched. csplit; auto. congruence. Qed.
Lemma post_trans h1 h2 h3 m1 m2 m3 : post h1 h2 m1 m2 -> post h2 h3 m2 m3 -> post h1 h3 m1 m3.
Proof.
  intros (A1 & A2 & (A3 & A3') & A4 & A5) (B1 & B2 & (B3 & B3') & B4 & B5).
  split; [exact B1|]. split; [congruence|]. split; [|split].
  - split; [lia|]. intros b Hb Hn. rewrite B3'; [apply A3'; auto|lia|]. intros X. destruct (mptr m1) as [q|] eqn:E.
    + rewrite A4 in X by discriminate. congruence.
    + apply (A5 eq_refl b Hb). symmetry. exact X.
  - intros H. rewrite B4; [apply A4; exact H|]. rewrite A4 by exact H. exact H.
  - intros H b Hb. destruct (mptr m2) as [q|] eqn:E.
    + rewrite B4 by discriminate. apply A5; auto.
    + intros X. apply (B5 eq_refl b ltac:(lia)). exact X.
Qed.

Lemma set_loop_spec o target src f : forall n i h m, mask_ok h m -> mask_ok h o -> unshared m o ->
  target + i + n <= mcnt m -> (forall k, i <= k < i + n -> src k = Ok (f k) /\ f k < mcnt o) ->
  exists h' m', set_loop n i h m o target src = Ok (h', m') /\ post h h' m m' /\
    forall j, j < mcnt m -> valid h' m' j = if (target + i <=? j) && (j <? target + i + n) then valid h o (f (j - target)) else valid h m j.
Proof.
  induction n as [|n IH]; intros i h m M O U H S.
  - exists h, m. split; [reflexivity|]. split; [apply post_refl; exact M|]. intros j Hj.
    replace ((target + i <=? j) && (j <? target + i + 0)) with false by lia. reflexivity.
  - destruct (S i ltac:(lia)) as [Si Fi]. cbn [set_loop]. rewrite Si. cbn [rbind]. rewrite row_is_valid_ok by auto. cbn [rbind].
    destruct (set_spec h m (target + i) (valid h o (f i)) M ltac:(lia)) as (h1 & m1 & E & P & V). rewrite E. cbn [rbind fst snd].
    destruct (post_other _ _ _ _ o P O U) as (O1 & VO & U1).
    destruct (IH (Datatypes.S i) h1 m1) as (h2 & m2 & E2 & P2 & V2); auto.
    { apply P. } { destruct P as (_ & Q & _). lia. } { intros k Hk. apply S. lia. }
    exists h2, m2. split; [exact E2|]. split; [eapply post_trans; eauto|]. intros j Hj.
    rewrite V2 by (destruct P as (_ & Q & _); lia). rewrite V by exact Hj. rewrite VO.
    destruct (Nat.eqb_spec j (target + i)) as [->|Nj].
    + replace ((target + Datatypes.S i <=? target + i) && (target + i <? target + Datatypes.S i + n)) with false by lia.
      replace ((target + i <=? target + i) && (target + i <? target + i + Datatypes.S n)) with true by lia.
      f_equal. f_equal. lia.
    + replace ((target + Datatypes.S i <=? j) && (j <? target + Datatypes.S i + n)) with ((target + i <=? j) && (j <? target + i + Datatypes.S n)) by lia.
      reflexivity.
Qed.

Lemma shift_loop_spec sa ta ns nt tail : sa <> ta -> forall k h si ti w, arr h sa ns -> arr h ta nt ->
  si + k < ns -> ti + k <= nt -> w = wd h sa si ->
  exists h', shift_loop k h sa si ta ti tail w = Ok (h', wd h sa (si + k)) /\ length h' = length h /\ frame h h' ta /\ arr h' ta nt /\
    forall j, wd h' ta j = if (ti <=? j) && (j <? ti + k)
      then N.lor (shr (wd h sa (si + (j - ti))) tail) (shl (wd h sa (S (si + (j - ti)))) (64 - tail)) else wd h ta j.
Proof.
  intros Ne. induction k as [|k IH]; intros h si ti w As At Hs Ht ->.
  - exists h. cbn [shift_loop]. rewrite Nat.add_0_r. split; [reflexivity|]. csplit; auto. intros j.
    replace ((ti <=? j) && (j <? ti + 0)) with false by lia. reflexivity.
  - cbn [shift_loop]. erewrite rdw_ok; [|exact As|lia]. cbn [rbind]. change BITS with 64.
    destruct (wrw_ok h ta nt ti (N.lor (shr (wd h sa si) tail) (shl (wd h sa (S si)) (64 - tail))) At) as (h1 & E & L & F & A & W).
    { lia. } { apply w64_lor; [apply w64_shr; eapply arr_w64; eauto|apply w64_shl]. }
    rewrite E. cbn [rbind].
    assert (As1 : arr h1 sa ns) by (eapply frame_arr; eauto).
    assert (Wsa : forall i, wd h1 sa i = wd h sa i) by (intros i; apply (frame_wd h h1 ta sa i F); [eapply arr_lt; eauto|exact Ne]).
    destruct (IH h1 (S si) (S ti) (wd h sa (S si))) as (h2 & E2 & L2 & F2 & A2 & W2); auto; try lia.
    exists h2. rewrite E2. rewrite Wsa. replace (S si + k) with (si + S k) by lia. split; [reflexivity|].
    split; [lia|]. split; [eapply frame_trans; eauto|]. split; [exact A2|]. intros j. rewrite W2, W, !Wsa.
    destruct (Nat.eqb_spec j ti) as [->|Nj].
    + replace ((S ti <=? ti) && (ti <? S ti + k)) with false by lia. replace ((ti <=? ti) && (ti <? ti + S k)) with true by lia.
      rewrite Nat.sub_diag, Nat.add_0_r. reflexivity.
    + replace ((S ti <=? j) && (j <? S ti + k)) with ((ti <=? j) && (j <? ti + S k)) by lia.
      destruct ((ti <=? j) && (j <? ti + S k)) eqn:Q; [|reflexivity].
      replace (S si + (j - S ti)) with (si + (j - ti)) by lia. reflexivity.
Qed.

(** the word at the ragged end *)
Lemma tb_ragged s t r k : r <= 64 -> k < 64 ->
  N.testbit (N.lor (N.land t (shl MAX_ENTRY r)) (N.land s (shr MAX_ENTRY (64 - r)))) (N.of_nat k) =
  if k <? r then N.testbit s (N.of_nat k) else N.testbit t (N.of_nat k).
Proof.
  intros Hr Hk. rewrite N.lor_spec, !N.land_spec, tb_shl, tb_shr, !tb_max.
  destruct (Nat.ltb_spec k r).
  - replace (N.of_nat r <=? N.of_nat k)%N with false by lia. replace (N.of_nat k + N.of_nat (64 - r) <? 64)%N with true by lia.
    rewrite !andb_false_r, andb_true_r. reflexivity.
  - replace (N.of_nat r <=? N.of_nat k)%N with true by lia. replace (N.of_nat k + N.of_nat (64 - r) <? 64)%N with false by lia.
    replace (N.of_nat k <? 64)%N with true by lia. replace (N.of_nat k - N.of_nat r <? 64)%N with true by lia.
    rewrite !andb_true_r, andb_false_r, orb_false_r. reflexivity.
Qed.

(** after copying, target row [j] is the source row *)
Definition copied (h g : heap) (ta : nat) (o : mask) (toff soff count n : nat) : Prop :=
  length h <= length g /\ frame h g ta /\ arr g ta n /\
  forall j, j < n -> rowb g ta j = if (toff <=? j) && (j <? toff + count) then valid h o (soff + (j - toff)) else rowb h ta j.

Lemma slice_aligned_spec h ta n o toff soff count : arr h ta n -> mask_ok h o -> mptr o <> Some ta ->
  toff + count <= n -> soff + count <= mcnt o -> toff mod 64 = 0 -> soff mod 64 = 0 ->
  exists g, slice_aligned h ta o toff soff count = Ok g /\ copied h g ta o toff soff count n.
Proof.
  intros A O U Ht Hs At As. unfold slice_aligned. change BITS with 64.
  assert (ET : entry_count toff = toff / 64) by (unfold entry_count; change BITS with 64; lia). rewrite ET.
  assert (ES : entry_count soff = soff / 64) by (unfold entry_count; change BITS with 64; lia). rewrite ES.
  set (S0 := fun i => match mptr o with None => MAX_ENTRY | Some sa => wd h sa i end).
  set (P := fun k g => length g = length h /\ frame h g ta /\ arr g ta n /\
              forall j, wd g ta j = if (toff / 64 <=? j) && (j <? toff / 64 + k) then S0 (soff / 64 + (j - toff / 64)) else wd h ta j).
  assert (P0 : P 0 h). { unfold P. csplit; auto. intros j. replace ((toff / 64 <=? j) && (j <? toff / 64 + 0)) with false by lia. reflexivity. }
  assert (STEP : forall k g, 0 <= k < 0 + count / 64 -> P k g -> forall w, w = S0 (soff / 64 + k) -> w64 w -> exists g', wrw g ta (toff / 64 + k) w = Ok g' /\ P (S k) g').
  { intros k g Hk (Lg & Fg & Ag & Wg) w -> W6.
    destruct (wrw_ok g ta n (toff / 64 + k) (S0 (soff / 64 + k)) Ag) as (g' & Q & L' & F' & A' & W'); [lia|exact W6|].
    exists g'. split; [exact Q|]. unfold P. split; [lia|]. split; [eapply frame_trans; eauto|]. split; [exact A'|].
    intros j. rewrite W', Wg. destruct (Nat.eqb_spec j (toff / 64 + k)) as [->|Nj].
    - replace ((toff / 64 <=? toff / 64 + k) && (toff / 64 + k <? toff / 64 + S k)) with true by lia. f_equal. lia.
    - replace ((toff / 64 <=? j) && (j <? toff / 64 + S k)) with ((toff / 64 <=? j) && (j <? toff / 64 + k)) by lia. reflexivity. }
  assert (LOOP : exists h1, match mptr o with
           | None => forn (count / 64) 0 (fun i g => wrw g ta (toff / 64 + i) MAX_ENTRY) h
           | Some sa => forn (count / 64) 0 (fun i g => do w <- rdw g sa (soff / 64 + i); wrw g ta (toff / 64 + i) w) h
           end = Ok h1 /\ P (count / 64) h1).
  { destruct (mptr o) as [sa|] eqn:Eo.
    - destruct (mask_ok_arr _ _ _ O Eo) as (ns & Ls & Aso). assert (Ne : sa <> ta) by congruence.
      apply (forn_ind P _ (count / 64) 0 h P0). intros k g Hk Pg. destruct Pg as (Lg & Fg & Ag & Wg).
      assert (Asg : arr g sa ns) by (eapply frame_arr; eauto). erewrite rdw_ok; [|exact Asg|lia]. cbn [rbind].
      apply (STEP k g Hk); [unfold P; auto| |eapply arr_w64; eauto].
      unfold S0. apply (frame_wd h g ta sa _ Fg); [eapply arr_lt; eauto|exact Ne].
    - apply (forn_ind P _ (count / 64) 0 h P0). intros k g Hk Pg. apply (STEP k g Hk Pg); reflexivity. }
  destruct LOOP as (h1 & E1 & (L1 & F1 & A1 & W1)). rewrite E1. cbn [rbind].
  (* rows of S0 *)
  assert (SV : forall q k, k < 64 -> soff mod 64 = 0 -> N.testbit (S0 (soff / 64 + q)) (N.of_nat k) = valid h o (soff + (64 * q + k))).
  { intros q k Hk _. unfold S0. destruct (mptr o) as [sa|] eqn:Eo.
    - rewrite (valid_some _ _ _ _ Eo). replace (soff + (64 * q + k)) with (64 * (soff / 64 + q) + k) by lia. symmetry. apply rowb_at. exact Hk.
    - rewrite valid_none by exact Eo. rewrite tb_max. lia. }
  assert (RW : forall j, j < n -> (j < toff + 64 * (count / 64) \/ toff + count <= j \/ count mod 64 = 0) -> forall x, j / 64 <> toff / 64 + count / 64 \/ x = wd h1 ta (j / 64) ->
     rowb h1 ta j = if (toff <=? j) && (j <? toff + count) then valid h o (soff + (j - toff)) else rowb h ta j).
  { intros j Hj Q x _. unfold rowb at 1. rewrite W1.
    destruct ((toff / 64 <=? j / 64) && (j / 64 <? toff / 64 + count / 64)) eqn:B.
    - replace ((toff <=? j) && (j <? toff + count)) with true by lia. rewrite SV by lia. f_equal. lia.
    - replace ((toff <=? j) && (j <? toff + count)) with false by lia. reflexivity. }
  destruct (Nat.eqb_spec (count mod 64) 0) as [R0|R0].
  - exists h1. split; [reflexivity|]. split; [lia|]. split; [exact F1|]. split; [exact A1|].
    intros j Hj. apply (RW j Hj ltac:(lia) (wd h1 ta (j / 64))). auto.
  - assert (RS : exists s, match mptr o with None => Ok MAX_ENTRY | Some sa => rdw h1 sa (soff / 64 + count / 64) end = Ok s /\
                 s = S0 (soff / 64 + count / 64) /\ w64 s).
    { unfold S0. destruct (mptr o) as [sa|] eqn:Eo.
      - destruct (mask_ok_arr _ _ _ O Eo) as (ns & Ls & Aso). assert (Ne : sa <> ta) by congruence.
        assert (Asg : arr h1 sa ns) by (eapply frame_arr; eauto). erewrite rdw_ok; [|exact Asg|lia].
        eexists. split; [reflexivity|]. split; [apply (frame_wd h h1 ta sa _ F1); [eapply arr_lt; eauto|exact Ne]|eapply arr_w64; eauto].
      - eexists. split; [reflexivity|]. split; reflexivity. }
    destruct RS as (s & -> & -> & W6). cbn [rbind]. erewrite rdw_ok; [|exact A1|lia]. cbn [rbind].
    destruct (wrw_ok h1 ta n (toff / 64 + count / 64)
      (N.lor (N.land (wd h1 ta (toff / 64 + count / 64)) (shl MAX_ENTRY (count mod 64)))
             (N.land (S0 (soff / 64 + count / 64)) (shr MAX_ENTRY (64 - count mod 64)))) A1) as (g & Q & L' & F' & A' & W').
    { lia. } { apply w64_lor; apply w64_land; [eapply arr_w64; eauto|exact W6]. }
    rewrite Q. exists g. split; [reflexivity|]. split; [lia|]. split; [eapply frame_trans; eauto|]. split; [exact A'|].
    intros j Hj. unfold rowb at 1. rewrite W'. destruct (Nat.eqb_spec (j / 64) (toff / 64 + count / 64)) as [X|X].
    + rewrite tb_ragged by lia. destruct (Nat.ltb_spec (j mod 64) (count mod 64)).
      * replace ((toff <=? j) && (j <? toff + count)) with true by lia. rewrite SV by lia. f_equal. lia.
      * replace ((toff <=? j) && (j <? toff + count)) with false by lia. rewrite W1.
        replace ((toff / 64 <=? toff / 64 + count / 64) && (toff / 64 + count / 64 <? toff / 64 + count / 64)) with false by lia.
        unfold rowb. rewrite X. reflexivity.
    + apply (RW j Hj ltac:(lia) 0%N). auto.
Qed.

Lemma slice_shifted_spec h ta n o sa toff soff count : arr h ta n -> mask_ok h o -> mptr o = Some sa -> sa <> ta ->
  toff + count <= n -> soff + count <= mcnt o -> toff mod 64 = 0 -> soff mod 64 <> 0 ->
  exists g, slice_shifted h ta sa toff soff count = Ok g /\ copied h g ta o toff soff count n.
Proof.
  intros A O Eo Ne Ht Hs At As. destruct (mask_ok_arr _ _ _ O Eo) as (ns & Ls & Aso).
  unfold slice_shifted. change BITS with 64. erewrite rdw_ok; [|exact Aso|lia]. cbn [rbind].
  destruct (shift_loop_spec sa ta ns n (soff mod 64) Ne (count / 64) h (soff / 64) (toff / 64) _ Aso A ltac:(lia) ltac:(lia) eq_refl) as (h1 & E1 & L1 & F1 & A1 & W1).
  rewrite E1. cbn [rbind fst snd].
  assert (Wsa : forall i, wd h1 sa i = wd h sa i) by (intros i; apply (frame_wd h h1 ta sa i F1); [eapply arr_lt; eauto|exact Ne]).
  assert (Hi : forall i k, 64 <= k -> N.testbit (wd h sa i) (N.of_nat k) = false).
  { intros i k Hk. apply lt64_bits; [apply (arr_w64 h sa ns i Aso)|lia]. }
  (* one shifted word, bit k *)
  assert (SH : forall q k, k < 64 ->
     N.testbit (N.lor (shr (wd h sa (soff / 64 + q)) (soff mod 64)) (shl (wd h sa (S (soff / 64 + q))) (64 - soff mod 64))) (N.of_nat k)
       = valid h o (soff + (64 * q + k))).
  { intros q k Hk. rewrite N.lor_spec, tb_shr, tb_shl, (valid_some _ _ _ _ Eo). replace (N.of_nat k <? 64)%N with true by lia. cbn [andb].
    replace (N.of_nat k + N.of_nat (soff mod 64))%N with (N.of_nat (k + soff mod 64)) by lia.
    destruct (Nat.lt_ge_cases (k + soff mod 64) 64) as [X|X].
    - replace (N.of_nat (64 - soff mod 64) <=? N.of_nat k)%N with false by lia. cbn [andb]. rewrite orb_false_r.
      replace (soff + (64 * q + k)) with (64 * (soff / 64 + q) + (k + soff mod 64)) by lia. symmetry. apply rowb_at. exact X.
    - rewrite Hi by exact X. replace (N.of_nat (64 - soff mod 64) <=? N.of_nat k)%N with true by lia. cbn [andb orb].
      replace (soff + (64 * q + k)) with (64 * S (soff / 64 + q) + (k + soff mod 64 - 64)) by lia.
      rewrite rowb_at by lia. f_equal. lia. }
  assert (RW : forall j, j < n -> j / 64 <> toff / 64 + count / 64 \/ count mod 64 = 0 ->
     rowb h1 ta j = if (toff <=? j) && (j <? toff + count) then valid h o (soff + (j - toff)) else rowb h ta j).
  { intros j Hj Q. unfold rowb at 1. rewrite W1.
    destruct ((toff / 64 <=? j / 64) && (j / 64 <? toff / 64 + count / 64)) eqn:B.
    - replace ((toff <=? j) && (j <? toff + count)) with true by lia. rewrite SH by lia. f_equal. lia.
    - replace ((toff <=? j) && (j <? toff + count)) with false by lia. reflexivity. }
  destruct (Nat.eqb_spec (count mod 64) 0) as [R0|R0].
  - exists h1. split; [reflexivity|]. split; [lia|]. split; [exact F1|]. split; [exact A1|]. intros j Hj. apply (RW j Hj). auto.
  - assert (T1 : exists t1, (if 64 - soff mod 64 <? count mod 64
        then do n0 <- rdw h1 sa (S (soff / 64 + count / 64)); Ok (N.lor (shr (wd h sa (soff / 64 + count / 64)) (soff mod 64)) (shl n0 (64 - soff mod 64)))
        else Ok (shr (wd h sa (soff / 64 + count / 64)) (soff mod 64))) = Ok t1 /\ w64 t1 /\
        forall k, k < count mod 64 -> N.testbit t1 (N.of_nat k) = valid h o (soff + (64 * (count / 64) + k))).
    { destruct (Nat.ltb_spec (64 - soff mod 64) (count mod 64)) as [X|X].
      - assert (Asg : arr h1 sa ns) by (eapply frame_arr; eauto). erewrite rdw_ok; [|exact Asg|lia]. cbn [rbind]. rewrite Wsa.
        eexists. split; [reflexivity|]. split; [apply w64_lor; [apply w64_shr; eapply arr_w64; eauto|apply w64_shl]|].
        intros k Hk. apply SH. lia.
      - eexists. split; [reflexivity|]. split; [apply w64_shr; eapply arr_w64; eauto|]. intros k Hk.
        rewrite <- SH by lia. rewrite N.lor_spec, tb_shl. replace (N.of_nat (64 - soff mod 64) <=? N.of_nat k)%N with false by lia.
        rewrite andb_false_r. cbn [andb]. rewrite orb_false_r. reflexivity. }
    destruct T1 as (t1 & -> & W6 & T1). cbn [rbind]. erewrite rdw_ok; [|exact A1|lia]. cbn [rbind].
    destruct (wrw_ok h1 ta n (toff / 64 + count / 64)
      (N.lor (N.land t1 (shr MAX_ENTRY (64 - count mod 64)))
             (N.land (wd h1 ta (toff / 64 + count / 64)) (shl MAX_ENTRY (count mod 64)))) A1) as (g & Q & L' & F' & A' & W').
    { lia. } { apply w64_lor; apply w64_land; [exact W6|eapply arr_w64; eauto]. }
    rewrite Q. exists g. split; [reflexivity|]. split; [lia|]. split; [eapply frame_trans; eauto|]. split; [exact A'|].
    intros j Hj. unfold rowb at 1. rewrite W'. destruct (Nat.eqb_spec (j / 64) (toff / 64 + count / 64)) as [X|X].
    + rewrite N.lor_comm, tb_ragged by lia. destruct (Nat.ltb_spec (j mod 64) (count mod 64)).
      * replace ((toff <=? j) && (j <? toff + count)) with true by lia. rewrite T1 by lia. f_equal. lia.
      * replace ((toff <=? j) && (j <? toff + count)) with false by lia. rewrite W1.
        replace ((toff / 64 <=? toff / 64 + count / 64) && (toff / 64 + count / 64 <? toff / 64 + count / 64)) with false by lia.
        unfold rowb. rewrite X. reflexivity.
    + apply (RW j Hj). auto.
Qed.

Lemma slice_in_place_spec h m o toff soff count : mask_ok h m -> mask_ok h o -> unshared m o ->
  toff + count <= mcnt m -> soff + count <= mcnt o -> slice_defined m o toff soff = true ->
  exists h' m', slice_in_place h m o toff soff count = Ok (h', m') /\ post h h' m m' /\
    forall j, j < mcnt m -> valid h' m' j = if (toff <=? j) && (j <? toff + count) then valid h o (soff + (j - toff)) else valid h m j.
Proof.
  intros M O U Ht Hs D. unfold slice_in_place.
  destruct ((if mptr m then false else true) && (if mptr o then false else true)) eqn:Tr.
  { destruct (mptr m) eqn:A; [discriminate|]. destruct (mptr o) eqn:B; [discriminate|].
    exists h, m. split; [reflexivity|]. split; [apply post_refl; exact M|]. intros j _. rewrite !valid_none by assumption.
    destruct ((toff <=? j) && (j <? toff + count)); reflexivity. }
  destruct (ensure_spec h m M) as (h1 & m1 & ta & nt & E & Em & Ln & At & P & L1 & F1 & _ & V).
  destruct (post_other _ _ _ _ o P O U) as (O1 & VO & U1).
  assert (Cm : mcnt m1 = mcnt m) by (apply P).
  rewrite E. cbn [rbind fst snd]. rewrite Em.
  assert (FIN : forall g, copied h1 g ta o toff soff count nt -> post h g m m1 /\
     forall j, j < mcnt m -> valid g m1 j = if (toff <=? j) && (j <? toff + count) then valid h o (soff + (j - toff)) else valid h m j).
  { intros g (Lg & Fg & Ag & Rg). split.
    - apply (post_trans _ _ _ _ _ _ P). split; [apply (arr_mask_ok g m1 ta nt); auto; lia|]. split; [reflexivity|].
      split; [eapply frame_untouched; eauto|]. split; [auto|congruence].
    - intros j Hj. rewrite (valid_some _ _ _ _ Em), Rg by lia. rewrite VO, <- (V j Hj), (valid_some _ _ _ _ Em). reflexivity. }
  assert (Nta : mptr o <> Some ta) by (apply U1; exact Em).
  destruct (aligned soff) eqn:As, (aligned toff) eqn:Al; cbn [andb]; unfold aligned in *; change BITS with 64 in *.
  - destruct (slice_aligned_spec h1 ta nt o toff soff count At O1 Nta) as (g & Eg & Cg); try lia.
    rewrite Eg. cbn [rbind]. exists g, m1. split; [reflexivity|]. apply FIN. exact Cg.
  - destruct (set_loop_spec o toff (fun i => Ok (soff + i)) (fun i => soff + i) count 0 h1 m1) as (h2 & m2 & E2 & P2 & V2); auto; try lia.
    { apply P. } { intros k Hk. split; [reflexivity|lia]. }
    rewrite E2. exists h2, m2. split; [reflexivity|]. split; [eapply post_trans; eauto|].
    intros j Hj. rewrite V2 by lia. rewrite VO, (V j Hj), Nat.add_0_r. reflexivity.
  - destruct (mptr o) as [sa|] eqn:Eo.
    + destruct (slice_shifted_spec h1 ta nt o sa toff soff count At O1 Eo) as (g & Eg & Cg); try lia; try congruence.
      rewrite Eg. cbn [rbind]. exists g, m1. split; [reflexivity|]. apply FIN. exact Cg.
    + exfalso. unfold slice_defined in D. rewrite Eo, As, Al in D. destruct (mptr m); discriminate.
  - destruct (set_loop_spec o toff (fun i => Ok (soff + i)) (fun i => soff + i) count 0 h1 m1) as (h2 & m2 & E2 & P2 & V2); auto; try lia.
    { apply P. } { intros k Hk. split; [reflexivity|lia]. }
    rewrite E2. exists h2, m2. split; [reflexivity|]. split; [eapply post_trans; eauto|].
    intros j Hj. rewrite V2 by lia. rewrite VO, (V j Hj), Nat.add_0_r. reflexivity.
Qed.

Lemma slice_spec h m o offset count : mask_ok h o -> offset + count <= mcnt o ->
  exists h' m', slice h m o offset count = Ok (h', m') /\ mask_ok h' m' /\
    length h <= length h' /\ (forall b, b < length h -> nth_error h' b = nth_error h b) /\
    (forall j, j < count -> valid h' m' j = valid h o (offset + j)) /\
    (offset <> 0 -> forall b, b < length h -> mptr m' <> Some b).
Proof.
  intros O H. unfold slice. destruct (mptr o) as [a|] eqn:Eo.
  - destruct (Nat.eqb_spec offset 0) as [->|Ho].
    + exists h, o. csplit; auto; intros; congruence.
    + unfold make. pose proof (alloc_ok h (fresh count) count (repeat_length _ _) (fresh_w64 _)) as X.
      pose proof (arr_lt h a) as La. destruct (mask_ok_arr _ _ _ O Eo) as (no & Lo & Ao). specialize (La _ Ao).
      destruct (alloc h (fresh count)) as [h1 b]. destruct X as (Eb & L1 & A1 & W1 & F1).
      set (n := {| mptr := Some b; mcnt := count |}).
      assert (O1 : mask_ok h1 o). { unfold mask_ok in *. rewrite Eo in *. rewrite F1 by exact La. exact O. }
      destruct (slice_in_place_spec h1 n o 0 offset count) as (h2 & m2 & E2 & P2 & V2); auto.
      * apply (arr_mask_ok h1 n b count); auto.
      * intros c Hc Q. cbn in Hc. rewrite Eo in Q. injection Hc as <-. injection Q as Q. lia.
      * unfold slice_defined. rewrite Eo. reflexivity.
      * exists h2, m2. split; [exact E2|]. destruct P2 as (Q1 & Q2 & (Q3 & Q3') & Q4 & Q5). split; [exact Q1|]. split; [lia|]. split; [|split].
        -- intros c Hc. rewrite Q3'; [apply F1; exact Hc|lia|]. cbn. intros X. injection X as X. lia.
        -- intros j Hj. rewrite V2 by exact Hj. replace ((0 <=? j) && (j <? 0 + count)) with true by lia. rewrite Nat.sub_0_r.
           unfold valid, words. rewrite Eo, F1 by exact La. reflexivity.
        -- intros _ c Hc X. rewrite Q4 in X by discriminate. cbn in X. injection X as X. lia.
  - exists h, {| mptr := None; mcnt := mcnt m |}. csplit; auto; cbn; try congruence; try exact I.
    intros j _. rewrite !valid_none; auto.
Qed.

Lemma copy_indexing_spec h m o sel soff toff count : mask_ok h m -> mask_ok h o -> unshared m o ->
  toff + count <= mcnt m ->
  (forall i, i < count -> exists s, (match sel with None => Some (soff + i) | Some l => nth_error l (soff + i) end) = Some s /\ s < mcnt o) ->
  exists h' m', copy_indexing h m o sel soff toff count = Ok (h', m') /\ post h h' m m' /\
    forall j, j < mcnt m -> valid h' m' j =
      if (toff <=? j) && (j <? toff + count)
      then valid h o (match sel with None => soff + (j - toff) | Some l => nth (soff + (j - toff)) l 0 end) else valid h m j.
Proof.
  intros M O U Ht S. unfold copy_indexing.
  destruct ((if mptr m then false else true) && (if mptr o then false else true)) eqn:Tr.
  { destruct (mptr m) eqn:A; [discriminate|]. destruct (mptr o) eqn:B; [discriminate|].
    exists h, m. split; [reflexivity|]. split; [apply post_refl; exact M|]. intros j _. rewrite !valid_none by assumption.
    destruct ((toff <=? j) && (j <? toff + count)); reflexivity. }
  destruct sel as [l|].
  - destruct (set_loop_spec o toff (fun i => match nth_error l (soff + i) with Some x => Ok x | None => Err UB end) (fun i => nth (soff + i) l 0) count 0 h m) as (h2 & m2 & E2 & P2 & V2); auto; try lia.
    { intros k Hk. destruct (S k ltac:(lia)) as (s & Es & Ls). rewrite Es. rewrite nth_nth_error, Es. auto. }
    exists h2, m2. split; [exact E2|]. split; [exact P2|]. intros j Hj. rewrite V2 by exact Hj. rewrite Nat.add_0_r. reflexivity.
  - assert (Hs : count = 0 \/ soff + count <= mcnt o).
    { destruct count as [|c]; [auto|]. right. destruct (S c ltac:(lia)) as (s & Es & Ls). injection Es as <-. lia. }
    destruct (aligned soff && aligned toff) eqn:Al.
    + destruct Hs as [->|Hs].
      * assert (DD : slice_defined m o toff soff = true).
        { unfold slice_defined. apply andb_true_iff in Al as [Al1 Al2]. unfold aligned in Al1. change BITS with 64 in Al1. rewrite Al1. cbn. rewrite andb_false_r. reflexivity. }
        unfold slice_in_place. rewrite Tr, Al.
        destruct (ensure_spec h m M) as (h1 & m1 & ta & nt & E & Em & Ln & At & P & L1 & F1 & _ & V).
        rewrite E. cbn [rbind fst snd]. rewrite Em. unfold slice_aligned. change BITS with 64. cbn [Nat.div Nat.modulo Nat.divmod fst snd Nat.eqb Nat.sub forn].
        assert (X : match mptr o with Some _ => Ok h1 | None => Ok h1 end = Ok h1) by (destruct (mptr o); reflexivity).
        rewrite X. cbn [rbind]. exists h1, m1. split; [reflexivity|]. split; [exact P|]. intros j Hj.
        replace ((toff <=? j) && (j <? toff + 0)) with false by lia. apply V. exact Hj.
      * apply slice_in_place_spec; auto. unfold slice_defined. apply andb_true_iff in Al as [Al1 Al2]. unfold aligned in Al1. change BITS with 64 in Al1. rewrite Al1. cbn [negb]. rewrite andb_false_r. reflexivity.
    + destruct (set_loop_spec o toff (fun i => Ok (soff + i)) (fun i => soff + i) count 0 h m) as (h2 & m2 & E2 & P2 & V2); auto; try lia.
      { intros k Hk. split; [reflexivity|]. lia. }
      exists h2, m2. split; [exact E2|]. split; [exact P2|]. intros j Hj. rewrite V2 by exact Hj. rewrite Nat.add_0_r. reflexivity.
Qed.
