From Verif Require Import Bytes Outcome ValidModel ValidSpec.
From Coq Require Import ZifyBool ZifyNat ZifyN.
Local Open Scope nat_scope.
Ltac Zify.zify_post_hook ::= Z.div_mod_to_equations.

Arguments bit : simpl never.
Arguments shl : simpl never.
Arguments shr : simpl never.
Arguments bnot : simpl never.
Arguments trunc : simpl never.

(** ** Bits *)
Lemma max_ones : MAX_ENTRY = N.ones 64. Proof. reflexivity. Qed.
Lemma tb_max k : N.testbit MAX_ENTRY k = (k <? 64)%N.
Proof.
  rewrite max_ones. destruct (N.ltb_spec k 64).
  - apply N.ones_spec_low. lia. - apply N.ones_spec_high. lia.
Qed.
Lemma tb_trunc w k : N.testbit (trunc w) k = N.testbit w k && (k <? 64)%N.
Proof. unfold trunc. rewrite N.land_spec, tb_max. reflexivity. Qed.
Lemma tb_shl w n k : N.testbit (shl w n) k = (k <? 64)%N && (N.of_nat n <=? k)%N && N.testbit w (k - N.of_nat n).
Proof.
  unfold shl. rewrite tb_trunc. destruct (N.leb_spec (N.of_nat n) k).
  - rewrite N.shiftl_spec_high' by lia. destruct (k <? 64)%N; cbn; rewrite ?andb_true_r, ?andb_false_r; reflexivity.
  - rewrite N.shiftl_spec_low by lia. cbn. rewrite andb_false_r. reflexivity.
Qed.
Lemma tb_shr w n k : N.testbit (shr w n) k = N.testbit w (k + N.of_nat n).
Proof. unfold shr. apply N.shiftr_spec'. Qed.
Lemma tb_one k : N.testbit 1 k = (k =? 0)%N.
Proof. destruct k as [|p]; [reflexivity|]. destruct p; reflexivity. Qed.
Lemma tb_bit i k : i < 64 -> N.testbit (bit i) k = (k =? N.of_nat i)%N.
Proof. intros H. unfold bit. rewrite tb_shl, tb_one. lia. Qed.
Lemma tb_bnot w k : N.testbit (bnot w) k = xorb (N.testbit w k) (k <? 64)%N.
Proof. unfold bnot. rewrite N.lxor_spec, tb_max. reflexivity. Qed.

(** a number is below 2^64 exactly when no bit from 64 on is set *)
Lemma lt64_bits w : (w < 2 ^ 64)%N <-> forall k, (64 <= k)%N -> N.testbit w k = false.
Proof.
  split.
  - intros H k Hk. destruct (N.eq_dec w 0) as [->|Nz]; [apply N.bits_0|]. apply N.bits_above_log2.
    apply N.log2_lt_pow2 in H; lia.
  - intros H. assert (E : w = (w mod 2 ^ 64)%N).
    { apply N.bits_inj. intros k. destruct (N.lt_ge_cases k 64).
      - rewrite N.mod_pow2_bits_low by lia. reflexivity.
      - rewrite N.mod_pow2_bits_high by lia. apply H. lia. }
    rewrite E. apply N.mod_lt. discriminate.
Qed.
Definition w64 (w : N) : Prop := (w < 2 ^ 64)%N.
Lemma w64_land a b : w64 a -> w64 (N.land a b).
Proof. unfold w64. rewrite !lt64_bits. intros H k Hk. rewrite N.land_spec, H by lia. reflexivity. Qed.
Lemma w64_lor a b : w64 a -> w64 b -> w64 (N.lor a b).
Proof. unfold w64. rewrite !lt64_bits. intros H H' k Hk. rewrite N.lor_spec, H, H' by lia. reflexivity. Qed.
Lemma w64_shl a n : w64 (shl a n).
Proof. unfold w64. rewrite lt64_bits. intros k Hk. rewrite tb_shl. replace (k <? 64)%N with false by lia. reflexivity. Qed.
Lemma w64_shr a n : w64 a -> w64 (shr a n).
Proof. unfold w64. rewrite !lt64_bits. intros H k Hk. rewrite tb_shr. apply H. lia. Qed.
Lemma w64_max : w64 MAX_ENTRY. Proof. reflexivity. Qed.
Lemma w64_bit i : w64 (bit i). Proof. apply w64_shl. Qed.

Lemma land_bit_zero w i : i < 64 -> (N.land w (bit i) =? 0)%N = negb (N.testbit w (N.of_nat i)).
Proof.
  intros H. destruct (N.testbit w (N.of_nat i)) eqn:E; cbn [negb].
  - apply N.eqb_neq. intros Z. assert (X : N.testbit (N.land w (bit i)) (N.of_nat i) = false) by (rewrite Z; apply N.bits_0).
    rewrite N.land_spec, E, tb_bit in X by exact H. rewrite N.eqb_refl in X. discriminate.
  - apply N.eqb_eq. apply N.bits_inj_0. intros k. rewrite N.land_spec, tb_bit by exact H.
    destruct (N.eqb_spec k (N.of_nat i)) as [->|]; [rewrite E; reflexivity|apply andb_false_r].
Qed.

(** ** Heap *)
Lemma upd_length {A} i (x : A) l : length (upd i x l) = length l.
Proof. revert i. induction l as [|y l IH]; intros [|i]; cbn; auto. Qed.
Lemma upd_nth_error {A} i (x : A) l j : i < length l -> nth_error (upd i x l) j = if j =? i then Some x else nth_error l j.
Proof.
  revert i j. induction l as [|y l IH]; intros [|i] [|j] H; cbn in *; try lia; try reflexivity. apply IH. lia.
Qed.
Lemma nth_nth_error {A} (l : list A) i d : nth i l d = match nth_error l i with Some x => x | None => d end.
Proof. revert i. induction l as [|y l IH]; intros [|i]; cbn; auto. Qed.
Lemma upd_nth {A} i (x d : A) l j : i < length l -> nth j (upd i x l) d = if j =? i then x else nth j l d.
Proof. intros H. rewrite !nth_nth_error, upd_nth_error by exact H. destruct (j =? i); reflexivity. Qed.

(** array [a] of the heap has [n] words, all of 64 bits *)
Definition arr (h : heap) (a n : nat) : Prop := exists ws, nth_error h a = Some ws /\ length ws = n /\ Forall w64 ws.
Definition wd (h : heap) (a i : nat) : N := nth i (words h a) 0%N.
Definition frame (h h' : heap) (a : nat) : Prop :=
  length h <= length h' /\ forall b, b < length h -> b <> a -> nth_error h' b = nth_error h b.

Lemma frame_refl h a : frame h h a. Proof. split; auto. Qed.
Lemma frame_trans h h' h'' a : frame h h' a -> frame h' h'' a -> frame h h'' a.
Proof. intros [A B] [C D]. split; [lia|]. intros b Hb Hn. rewrite D by lia. auto. Qed.
Lemma frame_wd h h' a b i : frame h h' a -> b < length h -> b <> a -> wd h' b i = wd h b i.
Proof. intros [_ F] Hb Hn. unfold wd, words. rewrite F by auto. reflexivity. Qed.
Lemma frame_arr h h' a b n : frame h h' a -> b <> a -> arr h b n -> arr h' b n.
Proof.
  intros [_ F] Hn (ws & E & X). exists ws. rewrite F; auto. apply nth_error_Some. congruence.
Qed.
Lemma arr_lt h a n : arr h a n -> a < length h.
Proof. intros (ws & E & _). apply nth_error_Some. congruence. Qed.
Lemma arr_w64 h a n i : arr h a n -> w64 (wd h a i).
Proof.
  intros (ws & E & _ & F). unfold wd, words. rewrite E. rewrite nth_nth_error. destruct (nth_error ws i) eqn:X; [|reflexivity].
  apply nth_error_In in X. rewrite Forall_forall in F. auto.
Qed.

Lemma rdw_ok h a n i : arr h a n -> i < n -> rdw h a i = Ok (wd h a i).
Proof.
  intros (ws & E & L & _) H. unfold rdw, wd, words. rewrite E, nth_nth_error.
  destruct (nth_error ws i) eqn:X; [reflexivity|]. apply nth_error_None in X. lia.
Qed.
Lemma wrw_ok h a n i w : arr h a n -> i < n -> w64 w ->
  exists h', wrw h a i w = Ok h' /\ length h' = length h /\ frame h h' a /\ arr h' a n /\
    forall j, wd h' a j = if j =? i then w else wd h a j.
Proof.
  intros A H W. pose proof (arr_lt _ _ _ A) as La. destruct A as (ws & E & L & F). unfold wrw. rewrite E. replace (i <? length ws) with true by lia.
  eexists. split; [reflexivity|]. split; [apply upd_length|]. split; [|split].
  - split; [rewrite upd_length; lia|]. intros b Hb Hn. rewrite upd_nth_error by exact La. replace (b =? a) with false by lia. reflexivity.
  - exists (upd i w ws). rewrite upd_nth_error, Nat.eqb_refl by exact La. rewrite upd_length. repeat split; auto.
    rewrite Forall_forall in *. intros x Hx. apply In_nth_error in Hx as [j Hj]. rewrite upd_nth_error in Hj by lia.
    destruct (j =? i); [congruence|]. apply F. eapply nth_error_In; exact Hj.
  - intros j. unfold wd, words. rewrite upd_nth_error, Nat.eqb_refl, E by exact La. apply upd_nth. lia.
Qed.
Lemma alloc_ok h ws n : length ws = n -> Forall w64 ws ->
  let '(h', a) := alloc h ws in
  a = length h /\ length h' = S (length h) /\ arr h' a n /\ (forall i, wd h' a i = nth i ws 0%N) /\
  (forall b, b < length h -> nth_error h' b = nth_error h b).
Proof.
  intros L F. unfold alloc. rewrite app_length. cbn. repeat split; try lia.
  - exists ws. rewrite nth_error_app2, Nat.sub_diag by lia. auto.
  - intros i. unfold wd, words. rewrite nth_error_app2, Nat.sub_diag by lia. reflexivity.
  - intros b Hb. apply nth_error_app1. exact Hb.
Qed.

Lemma forn_ind (P : nat -> heap -> Prop) body n : forall i h, P i h ->
  (forall k g, i <= k < i + n -> P k g -> exists g', body k g = Ok g' /\ P (S k) g') ->
  exists h', forn n i body h = Ok h' /\ P (i + n) h'.
Proof.
  induction n as [|n IH]; intros i h H B; [exists h; rewrite Nat.add_0_r; auto|].
  destruct (B i h) as (g & E & Pg); [lia|exact H|]. cbn [forn]. rewrite E. cbn [rbind].
  destruct (IH (S i) g Pg) as (h' & E' & Ph). { intros k x Hk. apply B. lia. }
  exists h'. split; [exact E'|]. replace (i + S n) with (S i + n) by lia. exact Ph.
Qed.

Lemma fresh_w64 n : Forall w64 (fresh n).
Proof. unfold fresh. induction n; constructor; auto. reflexivity. Qed.
Lemma fresh_nth n i : i < n -> nth i (fresh n) 0%N = MAX_ENTRY.
Proof. unfold fresh. revert i. induction n as [|n IH]; intros [|i] H; cbn; auto; try lia. apply IH. lia. Qed.

(** ** Rows *)
Definition rowb (h : heap) (a j : nat) : bool := N.testbit (wd h a (j / 64)) (N.of_nat (j mod 64)).
Lemma valid_some h m a j : mptr m = Some a -> valid h m j = rowb h a j.
Proof. intros E. unfold valid, rowb, wd. rewrite E. reflexivity. Qed.
Lemma valid_none h m j : mptr m = None -> valid h m j = true.
Proof. intros E. unfold valid. rewrite E. reflexivity. Qed.
Lemma mask_ok_arr h m a : mask_ok h m -> mptr m = Some a -> exists n, mcnt m <= n /\ arr h a n.
Proof. intros M E. unfold mask_ok in M. rewrite E in M. destruct M as (ws & X & L & F). exists (length ws). split; [exact L|]. exists ws. auto. Qed.
Lemma arr_mask_ok h m a n : mptr m = Some a -> mcnt m <= n -> arr h a n -> mask_ok h m.
Proof. intros E L (ws & X & Y & F). unfold mask_ok. rewrite E. exists ws. repeat split; auto. lia. Qed.

Lemma wd_rowb h a j k n : arr h a n -> k < 64 -> j = 64 * (j / 64) + k -> N.testbit (wd h a (j / 64)) (N.of_nat k) = rowb h a j.
Proof. intros _ Hk E. unfold rowb. f_equal. f_equal. lia. Qed.
Lemma rowb_at h a q k : k < 64 -> rowb h a (64 * q + k) = N.testbit (wd h a q) (N.of_nat k).
Proof. intros H. unfold rowb. f_equal; [f_equal; lia|f_equal; lia]. Qed.

Lemma row_is_valid_ok h m j : mask_ok h m -> j < mcnt m -> row_is_valid h m j = Ok (valid h m j).
Proof.
  intros M H. unfold row_is_valid. destruct (mptr m) as [a|] eqn:E; [|rewrite valid_none by exact E; reflexivity].
  destruct (mask_ok_arr _ _ _ M E) as (n & L & A). change BITS with 64. erewrite rdw_ok; [|exact A|lia]. cbn [rbind].
  rewrite land_bit_zero, negb_involutive by lia. rewrite (valid_some _ _ _ _ E). reflexivity.
Qed.

(** one bit of one word *)
Lemma set_bit_ok h a n row (v : bool) : arr h a n -> row < n ->
  exists h', (do w <- rdw h a (row / BITS);
              wrw h a (row / BITS) (if v then N.lor w (bit (row mod BITS)) else N.land w (bnot (bit (row mod BITS))))) = Ok h' /\
    length h' = length h /\ frame h h' a /\ arr h' a n /\ forall j, rowb h' a j = if j =? row then v else rowb h a j.
Proof.
  intros A H. change BITS with 64. erewrite rdw_ok; [|exact A|lia]. cbn [rbind].
  pose proof (arr_w64 h a n (row / 64) A) as W.
  destruct (wrw_ok h a n (row / 64) (if v then N.lor (wd h a (row / 64)) (bit (row mod 64)) else N.land (wd h a (row / 64)) (bnot (bit (row mod 64)))) A) as (h' & E & L & F & A' & X).
  - lia.
  - destruct v; [apply w64_lor; [exact W|apply w64_bit]|apply w64_land; exact W].
  - exists h'. repeat (split; [assumption|]). intros j. unfold rowb. rewrite X.
    destruct (Nat.eqb_spec (j / 64) (row / 64)) as [Q|Q].
    + destruct v; [rewrite N.lor_spec, tb_bit by lia|rewrite N.land_spec, tb_bnot, tb_bit by lia]; rewrite <- Q;
        destruct (Nat.eqb_spec j row) as [R|R].
      * replace (N.of_nat (j mod 64) =? N.of_nat (row mod 64))%N with true by (subst; lia). apply orb_true_r.
      * replace (N.of_nat (j mod 64) =? N.of_nat (row mod 64))%N with false by lia. apply orb_false_r.
      * replace (N.of_nat (j mod 64) =? N.of_nat (row mod 64))%N with true by (subst; lia).
        replace (N.of_nat (j mod 64) <? 64)%N with true by lia. apply andb_false_r.
      * replace (N.of_nat (j mod 64) =? N.of_nat (row mod 64))%N with false by lia.
        replace (N.of_nat (j mod 64) <? 64)%N with true by lia. apply andb_true_r.
    + replace (j =? row) with false by (destruct (Nat.eqb_spec j row); [subst; congruence|reflexivity]). reflexivity.
Qed.

(** growing the heap by a fresh all-valid array *)
Lemma fresh_rowb h n j : j < 64 * n -> rowb (fst (alloc h (fresh n))) (snd (alloc h (fresh n))) j = true.
Proof.
  pose proof (alloc_ok h (fresh n) n (repeat_length _ _) (fresh_w64 n)) as X. destruct (alloc h (fresh n)) as [h' a].
  destruct X as (_ & _ & _ & W & _). intros Hj. cbn [fst snd]. unfold rowb. rewrite W, fresh_nth by lia. rewrite tb_max. lia.
Qed.

Lemma set_spec h m row v : mask_ok h m -> row < mcnt m ->
  exists h' m', set h m row v = Ok (h', m') /\ post h h' m m' /\
    forall j, j < mcnt m -> valid h' m' j = if j =? row then v else valid h m j.
Proof.
  intros M H. unfold set. destruct (mptr m) as [a|] eqn:E.
  - destruct (mask_ok_arr _ _ _ M E) as (n & Ln & A).
    destruct (set_bit_ok h a n row v A ltac:(lia)) as (h' & Q & L & F & A' & R).
    exists h', m. assert (PO : post h h' m m).
    { split; [eapply arr_mask_ok; eauto|]. split; [reflexivity|]. split; [|split; [auto|congruence]].
      destruct F as [F1 F2]. split; [lia|]. intros b Hb Hn. apply F2; [exact Hb|congruence]. }
    assert (VV : forall j, j < mcnt m -> valid h' m j = if j =? row then v else valid h m j).
    { intros j _. rewrite !(valid_some _ _ _ _ E). apply R. }
    change BITS with 64 in *. destruct v.
    + destruct (rdw h a (row / 64)); [|discriminate]. cbn [rbind] in *. rewrite Q. cbn [rbind]. auto.
    + destruct (rdw h a (row / 64)); [|discriminate]. cbn [rbind] in *. rewrite Q. cbn [rbind].
      destruct m as [p c]. cbn in E. subst p. auto.
  - destruct v.
    + exists h, m. split; [reflexivity|]. split.
      * split; [exact M|]. split; [reflexivity|]. split; [split; auto|]. split; [congruence|]. intros _ b _. congruence.
      * intros j _. rewrite valid_none by exact E. destruct (j =? row); reflexivity.
    + pose proof (alloc_ok h (fresh (mcnt m)) (mcnt m) (repeat_length _ _) (fresh_w64 _)) as X.
      pose proof (fun j => fresh_rowb h (mcnt m) j) as FR. destruct (alloc h (fresh (mcnt m))) as [h1 a].
      destruct X as (Ea & L1 & A & W & F1). cbn [fst snd] in FR.
      destruct (set_bit_ok h1 a (mcnt m) row false A ltac:(lia)) as (h' & Q & L & F & A' & R).
      cbn [rbind]. change BITS with 64 in *. destruct (rdw h1 a (row / 64)); [|discriminate]. cbn [rbind] in *. rewrite Q. cbn [rbind].
      exists h', {| mptr := Some a; mcnt := mcnt m |}. split; [reflexivity|]. split.
      * split; [eapply arr_mask_ok; cbn; eauto|]. split; [reflexivity|]. split; [|split; [congruence|]].
        -- split; [lia|]. intros b Hb _. destruct F as [_ F]. rewrite F by lia. apply F1. exact Hb.
        -- intros _ b Hb X. cbn in X. injection X as X. lia.
      * intros j Hj. rewrite (valid_some _ _ a) by reflexivity. rewrite R, FR by lia. rewrite valid_none by exact E. reflexivity.
Qed.
