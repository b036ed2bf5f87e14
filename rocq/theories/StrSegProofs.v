(** Lemmas about one segment of a column of strings. *)
From Verif Require Import Bytes Outcome StrSegModel StrSegSpec.
From Coq Require Import ZifyBool ZifyNat ZifyN.

Lemma rd_Ok m p n b : rd m p n = Ok b <-> p + n <= length m /\ b = firstn n (skipn p m).
Proof.
  unfold rd. destruct (Nat.leb_spec (p + n) (length m)).
  - split; [intros [= <-]; auto | intros [_ ->]; reflexivity].
  - split; [discriminate | lia].
Qed.
Lemma rd_length m p n b : rd m p n = Ok b -> length b = n.
Proof. intros H. apply rd_Ok in H as [H ->]. rewrite firstn_length, skipn_length. lia. Qed.
Lemma rd_bound m p n b : rd m p n = Ok b -> p + n <= length m.
Proof. intros H. apply rd_Ok in H. tauto. Qed.

(** A read is a part of the memory. *)
Lemma rd_iff m p n b : rd m p n = Ok b <-> exists x y, m = x ++ b ++ y /\ length x = p /\ length b = n.
Proof.
  split.
  - intros H. pose proof (rd_length _ _ _ _ H). apply rd_Ok in H as [H E].
    exists (firstn p m), (skipn n (skipn p m)). split; [| split; [rewrite firstn_length; lia | auto] ].
    rewrite E, firstn_skipn, firstn_skipn. reflexivity.
  - intros (x & y & -> & Hx & Hb). apply rd_Ok. rewrite !app_length. split; [lia |].
    rewrite skipn_app, skipn_all2 by lia. replace (p - length x) with 0 by lia. cbn [skipn app].
    rewrite firstn_app, firstn_all2 by lia. replace (n - length b) with 0 by lia. cbn [firstn]. rewrite app_nil_r. reflexivity.
Qed.
Lemma app_split {A} (a b c d : list A) : a ++ b = c ++ d -> length a = length c -> a = c /\ b = d.
Proof.
  revert c. induction a as [| h a IH]; intros [| k c] H L; try discriminate; cbn in *; auto.
  injection H as -> H. destruct (IH c H) as [-> ->]; [lia | auto].
Qed.
Lemma rd_app m p n k x y : rd m p n = Ok x -> rd m (p + n) k = Ok y -> rd m p (n + k) = Ok (x ++ y).
Proof.
  rewrite !rd_iff. intros (a & b & E & La & Lx) (a' & b' & E' & La' & Ly).
  exists a, b'. rewrite app_length. split; [| split; lia].
  rewrite E in E'. rewrite app_assoc in E'. apply app_split in E' as [<- E']; [| rewrite app_length; lia].
  rewrite E, E', <- !app_assoc. reflexivity.
Qed.
Lemma rd_sub m p n b q k x y z :
  rd m p n = Ok b -> b = x ++ y ++ z -> q = p + length x -> k = length y -> rd m q k = Ok y.
Proof.
  rewrite !rd_iff. intros (a & c & E & La & Lb) -> -> ->. exists (a ++ x), (z ++ c).
  rewrite app_length, E, <- !app_assoc. split; [reflexivity | split; lia].
Qed.

Lemma wr_Ok m p b : p + length b <= length m -> exists m', wr m p b = Ok m'.
Proof. intros H. unfold wr. destruct (Nat.leb_spec (p + length b) (length m)); [eauto | lia]. Qed.
Lemma wr_iff m p b m' : wr m p b = Ok m' <-> exists x c y, m = x ++ c ++ y /\ m' = x ++ b ++ y /\ length x = p /\ length c = length b.
Proof.
  unfold wr. split.
  - destruct (Nat.leb_spec (p + length b) (length m)) as [H | H]; [| discriminate]. intros [= <-].
    exists (firstn p m), (firstn (length b) (skipn p m)), (skipn (length b) (skipn p m)).
    split; [rewrite !firstn_skipn; reflexivity |]. split; [| rewrite !firstn_length, ?skipn_length; lia].
    do 2 f_equal. rewrite <- (firstn_skipn p m) at 1. rewrite skipn_app, skipn_all2 by (rewrite firstn_length; lia).
    rewrite firstn_length. cbn [app]. f_equal. lia.
  - intros (x & c & y & -> & -> & Lx & Lc). rewrite !app_length.
    destruct (Nat.leb_spec (p + length b) (length x + (length c + length y))) as [H | H]; [| lia]. f_equal.
    rewrite firstn_app, firstn_all2 by lia. replace (p - length x) with 0 by lia. cbn [firstn]. rewrite app_nil_r.
    do 2 f_equal. rewrite skipn_app, skipn_all2 by lia. cbn [app].
    rewrite skipn_app, skipn_all2 by lia. cbn [app]. replace (p + length b - length x - length c) with 0 by lia. reflexivity.
Qed.
Lemma wr_length m p b m' : wr m p b = Ok m' -> length m' = length m.
Proof. rewrite wr_iff. intros (x & c & y & -> & -> & _ & L). rewrite !app_length. lia. Qed.
Lemma rd_wr_same m p b m' : wr m p b = Ok m' -> rd m' p (length b) = Ok b.
Proof. rewrite wr_iff, rd_iff. intros (x & c & y & -> & -> & L & _). eauto. Qed.
Lemma rd_wr_other m p b m' q n : wr m p b = Ok m' -> q + n <= p \/ p + length b <= q -> rd m' q n = rd m q n.
Proof.
  rewrite wr_iff. intros (x & c & y & -> & -> & L & L2) D. unfold rd. rewrite !app_length.
  replace (length x + (length b + length y)) with (length x + (length c + length y)) by lia.
  destruct (_ <=? _) eqn:E; [| reflexivity]. f_equal. apply Nat.leb_le in E. destruct D as [D | D].
  - rewrite !(skipn_app q x), !firstn_app, skipn_length. replace (n - (length x - q)) with 0 by lia.
    cbn [firstn]. reflexivity.
  - f_equal. rewrite !skipn_app. rewrite !(skipn_all2 x), (skipn_all2 b), (skipn_all2 c) by lia.
    cbn [app]. f_equal. lia.
Qed.

(** 4-byte numbers. *)
Lemma le32_length n : length (le32 n) = 4.
Proof. unfold le32. rewrite rev_length. apply be_length. Qed.
Lemma rd32_Ok m p n : rd32 m p = Ok n <-> exists b, rd m p 4 = Ok b /\ n = unbe (rev b).
Proof.
  unfold rd32. destruct (rd m p 4) as [b | e]; cbn [rbind].
  - split; [intros [= <-]; eauto | intros (b' & [= <-] & ->); reflexivity].
  - split; [discriminate | intros (b' & H & _); discriminate].
Qed.
Lemma rd32_bound m p n : rd32 m p = Ok n -> p + 4 <= length m.
Proof. rewrite rd32_Ok. intros (b & H & _). eapply rd_bound; eauto. Qed.
Lemma rd32_wr32_same m p n m' : (n < 2 ^ 32)%N -> wr32 m p n = Ok m' -> rd32 m' p = Ok n.
Proof.
  intros L H. apply rd_wr_same in H. rewrite le32_length in H. apply rd32_Ok. exists (le32 n). split; [exact H |].
  unfold le32. rewrite rev_involutive, unbe_be. change (256 ^ N.of_nat 4)%N with (2 ^ 32)%N. rewrite N.mod_small; auto.
Qed.
Lemma rd32_wr_other m p b m' q : wr m p b = Ok m' -> q + 4 <= p \/ p + length b <= q -> rd32 m' q = rd32 m q.
Proof. intros H D. unfold rd32. rewrite (rd_wr_other _ _ _ _ q 4 H D). reflexivity. Qed.
Lemma rd32_wr32_other m p n m' q : wr32 m p n = Ok m' -> q + 4 <= p \/ p + 4 <= q -> rd32 m' q = rd32 m q.
Proof. intros H D. eapply rd32_wr_other; [exact H |]. rewrite le32_length. exact D. Qed.
Lemma rd_wr32_other m p k m' q n : wr32 m p k = Ok m' -> q + n <= p \/ p + 4 <= q -> rd m' q n = rd m q n.
Proof. intros H D. eapply rd_wr_other; [exact H |]. rewrite le32_length. exact D. Qed.
Lemma wr32_Ok m p n : p + 4 <= length m -> exists m', wr32 m p n = Ok m'.
Proof. intros H. apply wr_Ok. rewrite le32_length. exact H. Qed.
Lemma wr32_length m p n m' : wr32 m p n = Ok m' -> length m' = length m.
Proof. apply wr_length. Qed.

Lemma of_int_lt z : (of_int z < 2 ^ 32)%N.
Proof. unfold of_int. pose proof (Z.mod_pos_bound z (2 ^ 32) ltac:(lia)). lia. Qed.
Lemma as_of_int z : (- 2 ^ 31 <= z < 2 ^ 31)%Z -> as_int (of_int z) = z.
Proof.
  intros H. unfold as_int, of_int. pose proof (Z.mod_pos_bound z (2 ^ 32) ltac:(lia)).
  assert ((z mod 2 ^ 32 = z)%Z /\ (0 <= z)%Z \/ (z mod 2 ^ 32 = z + 2 ^ 32)%Z /\ (z < 0)%Z) as D.
  { destruct (Z.le_gt_cases 0 z); [left; rewrite Z.mod_small by lia; lia | right; split; [| lia] ].
    rewrite <- (Z.mod_add z 1 (2 ^ 32)) by lia. rewrite Z.mod_small by lia. lia. }
  rewrite Z2N.id by lia. destruct (N.ltb_spec (Z.to_N (z mod 2 ^ 32)) (2 ^ 31)); lia.
Qed.
Lemma of_int_nat n : (Z.of_nat n < 2 ^ 32)%Z -> of_int (Z.of_nat n) = N.of_nat n.
Proof. intros H. unfold of_int. rewrite Z.mod_small by lia. lia. Qed.
