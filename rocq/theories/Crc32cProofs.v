From Verif Require Import Bytes Crc32cModel Crc32cSpec.
From Coq Require Import ZifyBool ZifyNat ZifyN.
Ltac Zify.zify_post_hook ::= Z.div_mod_to_equations.
Local Open Scope N_scope.

Definition bit_step (c : N) (b : bool) : N := crc_shift (N.lxor c (N.b2n b)).

Lemma div2_lxor a b : N.div2 (N.lxor a b) = N.lxor (N.div2 a) (N.div2 b).
Proof. rewrite !N.div2_spec. apply N.shiftr_lxor. Qed.

Lemma odd_lxor a b : N.odd (N.lxor a b) = xorb (N.odd a) (N.odd b).
Proof. rewrite <- !N.bit0_odd. apply N.lxor_spec. Qed.

Lemma crc_shift_lxor a b : crc_shift (N.lxor a b) = N.lxor (crc_shift a) (crc_shift b).
Proof.
  unfold crc_shift. rewrite div2_lxor, odd_lxor.
  apply N.bits_inj; intro n. rewrite !N.lxor_spec.
  destruct (N.odd a), (N.odd b); cbn [xorb]; rewrite ?N.bits_0;
  destruct (N.testbit (N.div2 a) n), (N.testbit (N.div2 b) n), (N.testbit POLY n); reflexivity.
Qed.

Lemma crc_shift_0 : crc_shift 0 = 0. Proof. reflexivity. Qed.

Lemma lxor_lt a b n : a < 2^n -> b < 2^n -> N.lxor a b < 2^n.
Proof.
  intros Ha Hb.
  destruct (N.eq_dec (N.lxor a b) 0) as [->|Hne]; [apply N.neq_0_lt_0, N.pow_nonzero; discriminate|].
  apply N.log2_lt_pow2; [lia|].
  pose proof (N.log2_lxor a b).
  assert (forall x, x < 2^n -> 0 < n -> N.log2 x < n).
  { intros x Hx Hn. destruct (N.eq_dec x 0) as [->|]; [exact Hn|]. apply N.log2_lt_pow2; lia. }
  destruct (N.eq_dec n 0) as [->|Hn0].
  - change (2^0) with 1 in *. assert (a = 0) by lia. assert (b = 0) by lia. subst. exfalso; apply Hne; reflexivity.
  - assert (N.log2 a < n) by (apply H0; lia). assert (N.log2 b < n) by (apply H0; lia). lia.
Qed.

Lemma crc_shift_lt c : c < 2^32 -> crc_shift c < 2^32.
Proof.
  intros H. unfold crc_shift. apply lxor_lt.
  - rewrite N.div2_div. lia.
  - destruct (N.odd c); reflexivity.
Qed.

Lemma crc_shift_inj0 c : c < 2^32 -> crc_shift c = 0 -> c = 0.
Proof.
  intros H E. unfold crc_shift in E. apply N.lxor_eq in E.
  rewrite N.div2_div in E.
  pose proof (N.div_mod c 2 ltac:(discriminate)) as D.
  destruct (N.odd c) eqn:O.
  - unfold POLY in E. lia.
  - assert (c mod 2 = 0).
    { rewrite <- N.bit0_odd in O. apply N.bit0_eqb in O || idtac.
      destruct (N.Even_or_Odd c) as [[k ->]|Ho].
      - rewrite N.mul_comm. apply N.mod_mul. discriminate.
      - rewrite N.bit0_odd in O. apply N.odd_spec in Ho. congruence. }
    lia.
Qed.

Lemma crc_shift_double x : crc_shift (2 * x) = x.
Proof.
  unfold crc_shift. replace (2*x) with (N.double x) by (destruct x; reflexivity).
  rewrite N.div2_double. replace (N.odd (N.double x)) with false.
  - apply N.lxor_0_r.
  - destruct x; reflexivity.
Qed.

(** number whose bit i is the i-th element *)
Fixpoint N_of_bits (l : list bool) : N :=
  match l with [] => 0 | b :: r => N.lxor (N.b2n b) (2 * N_of_bits r) end.

Lemma iter_succ_r {A} n (f : A -> A) x : Nat.iter (S n) f x = Nat.iter n f (f x).
Proof. induction n as [|n IH]; [reflexivity|]. change (f (Nat.iter (S n) f x) = f (Nat.iter n f (f x))). rewrite IH. reflexivity. Qed.

Lemma feed_bits l c : fold_left bit_step l c = Nat.iter (List.length l) crc_shift (N.lxor c (N_of_bits l)).
Proof.
  revert c. induction l as [|b l IH]; intro c.
  - cbn. rewrite N.lxor_0_r. reflexivity.
  - cbn [fold_left List.length]. rewrite IH. rewrite iter_succ_r. f_equal.
    cbn [N_of_bits]. rewrite <- N.lxor_assoc, crc_shift_lxor, crc_shift_double. reflexivity.
Qed.

Lemma N_of_bits_byte b : N_of_bits (bits_of_byte b) = N_of_byte b.
Proof. destruct b as [[|] [|] [|] [|] [|] [|] [|] [|]]; reflexivity. Qed.

Lemma crc_byte_bits c b : crc_byte c b = fold_left bit_step (bits_of_byte b) c.
Proof.
  rewrite feed_bits, N_of_bits_byte. unfold crc_byte. destruct b; reflexivity.
Qed.

Lemma crc_bytes_bits l c : fold_left crc_byte l c = fold_left bit_step (bits l) c.
Proof.
  revert c. induction l as [|b l IH]; intro c; [reflexivity|].
  cbn [fold_left bits flat_map]. rewrite fold_left_app, crc_byte_bits. apply IH.
Qed.

Lemma bit_step_diff c d b e : bit_step (N.lxor c d) (xorb b e) = N.lxor (bit_step c b) (bit_step d e).
Proof.
  unfold bit_step. rewrite <- crc_shift_lxor. f_equal.
  replace (N.b2n (xorb b e)) with (N.lxor (N.b2n b) (N.b2n e)) by (destruct b, e; reflexivity).
  rewrite !N.lxor_assoc. f_equal. rewrite <- !N.lxor_assoc. f_equal. apply N.lxor_comm.
Qed.

Lemma fold_diff x y c c' : List.length x = List.length y ->
  N.lxor (fold_left bit_step x c) (fold_left bit_step y c')
  = fold_left bit_step (map (fun p => xorb (fst p) (snd p)) (combine x y)) (N.lxor c c').
Proof.
  revert y c c'. induction x as [|b x IH]; intros [|e y] c c' H; try discriminate; [reflexivity|].
  cbn [fold_left combine map fst snd]. rewrite IH by (injection H; auto).
  rewrite bit_step_diff. reflexivity.
Qed.

Lemma zeros_nonzero n d : d < 2^32 -> d <> 0 -> fold_left bit_step (repeat false n) d <> 0.
Proof.
  revert d. induction n as [|n IH]; intros d Hlt Hne; [exact Hne|].
  cbn [repeat fold_left]. unfold bit_step at 2. cbn [N.b2n]. rewrite N.lxor_0_r.
  apply IH; [apply crc_shift_lt; exact Hlt|].
  intro E. apply crc_shift_inj0 in E; congruence.
Qed.

Lemma zeros_zero n : fold_left bit_step (repeat false n) 0 = 0.
Proof. induction n as [|n IH]; [reflexivity|exact IH]. Qed.

Lemma iter_nonzero n d : d < 2^32 -> d <> 0 -> Nat.iter n crc_shift d <> 0 /\ Nat.iter n crc_shift d < 2^32.
Proof.
  intros Hlt Hne. induction n as [|n [IH1 IH2]]; [split; assumption|].
  change (Nat.iter (S n) crc_shift d) with (crc_shift (Nat.iter n crc_shift d)).
  split; [intro E; apply crc_shift_inj0 in E; congruence|apply crc_shift_lt; exact IH2].
Qed.

Lemma N_of_bits_lt l : N_of_bits l < 2 ^ N.of_nat (List.length l).
Proof.
  induction l as [|b l IH]; [reflexivity|].
  cbn [N_of_bits List.length]. rewrite Nat2N.inj_succ.
  apply lxor_lt.
  - rewrite N.pow_succ_r'. assert (2 ^ N.of_nat (List.length l) <> 0) by (apply N.pow_nonzero; discriminate).
    destruct b; cbn [N.b2n]; lia.
  - rewrite N.pow_succ_r'. lia.
Qed.

Lemma N_of_bits_nonzero l : In true l -> N_of_bits l <> 0.
Proof.
  induction l as [|b l IH]; [intros []|].
  intros H E. cbn [N_of_bits] in E. apply N.lxor_eq in E.
  destruct b.
  - cbn [N.b2n] in E. lia.
  - destruct H as [H|H]; [discriminate|]. cbn [N.b2n] in E. apply IH; [exact H|]. lia.
Qed.

Lemma bits_length x y : List.length x = List.length y -> List.length (bits x) = List.length (bits y).
Proof.
  revert y. induction x as [|a x IH]; intros [|b y] H; try discriminate; [reflexivity|].
  cbn [bits flat_map]. rewrite !app_length. destruct a, b. cbn [bits_of_byte List.length].
  unfold bits in IH. rewrite (IH y) by (injection H; auto). reflexivity.
Qed.

Theorem crc_detects_burst x y :
  List.length x = List.length y -> burst 32 (diff x y) -> crc32c x <> crc32c y.
Proof.
  intros HL (a & e & b & HD & Hlen & Hin) E.
  unfold crc32c in E.
  assert (E2 : fold_left crc_byte x 0xFFFFFFFF = fold_left crc_byte y 0xFFFFFFFF).
  { apply (f_equal (fun z => N.lxor z 0xFFFFFFFF)) in E.
    rewrite !N.lxor_assoc, !N.lxor_nilpotent, !N.lxor_0_r in E. exact E. }
  clear E. rewrite !crc_bytes_bits in E2.
  assert (Z : N.lxor (fold_left bit_step (bits x) 0xFFFFFFFF) (fold_left bit_step (bits y) 0xFFFFFFFF) = 0)
    by (rewrite E2; apply N.lxor_nilpotent).
  rewrite fold_diff in Z by (apply bits_length; exact HL).
  rewrite N.lxor_nilpotent in Z. unfold diff in HD. rewrite HD in Z.
  rewrite !fold_left_app, zeros_zero, (feed_bits e), N.lxor_0_l in Z.
  assert (HE : N_of_bits e < 2^32).
  { pose proof (N_of_bits_lt e). eapply N.lt_le_trans; [exact H|].
    apply N.pow_le_mono_r; [discriminate|lia]. }
  destruct (iter_nonzero (List.length e) (N_of_bits e) HE (N_of_bits_nonzero e Hin)) as [N1 N2].
  revert Z. apply zeros_nonzero; assumption.
Qed.
