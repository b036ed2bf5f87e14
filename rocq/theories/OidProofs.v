From Verif Require Import Bytes ByteOrd OidModel.
From Coq Require Import ZifyBool ZifyNat ZifyN.
Ltac Zify.zify_post_hook ::= Z.div_mod_to_equations.
Local Open Scope N_scope.

Lemma to_char_val v : v < 16 -> N_of_byte (to_char v) = if v <? 10 then 48 + v else 87 + v.
Proof. intros H. unfold to_char. destruct (N.ltb_spec v 10); rewrite N_of_byte_of_N; lia. Qed.

Lemma from_to_char v : v < 16 -> from_char (to_char v) = v.
Proof.
  intros H. unfold from_char. rewrite to_char_val by exact H. destruct (N.ltb_spec v 10).
  - replace ((48 <=? 48 + v) && (48 + v <=? 57)) with true by lia. lia.
  - replace ((48 <=? 87 + v) && (87 + v <=? 57)) with false by lia.
    replace ((97 <=? 87 + v) && (87 + v <=? 102)) with true by lia. lia.
Qed.

Lemma to_char_hex v : v < 16 -> is_hex (to_char v) = true.
Proof. intros H. unfold is_hex. rewrite to_char_val by exact H. destruct (N.ltb_spec v 10); lia. Qed.

Lemma to_string_length o : length (to_string o) = (2 * length o)%nat.
Proof. induction o as [|b o IH]; [reflexivity|]. cbn [to_string flat_map app length]. unfold to_string in IH. rewrite IH. lia. Qed.

Lemma to_string_hex o : forallb is_hex (to_string o) = true.
Proof.
  induction o as [|b o IH]; [reflexivity|]. pose proof (N_of_byte_lt b).
  change (to_string (b :: o)) with (to_char (N_of_byte b / 16) :: to_char (N_of_byte b mod 16) :: to_string o).
  cbn [forallb]. rewrite !to_char_hex by lia. exact IH.
Qed.

Lemma pairs_to_string o : pairs (to_string o) = o.
Proof.
  induction o as [|b o IH]; [reflexivity|]. pose proof (N_of_byte_lt b).
  change (to_string (b :: o)) with (to_char (N_of_byte b / 16) :: to_char (N_of_byte b mod 16) :: to_string o).
  cbn [pairs]. rewrite !from_to_char by lia. rewrite IH.
  replace (N_of_byte b / 16 * 16 + N_of_byte b mod 16) with (N_of_byte b) by lia.
  rewrite byte_of_N_of_byte. reflexivity.
Qed.

Lemma parse_to_string o : oid_wf o = true -> is_valid (to_string o) = true /\ parse (to_string o) = o.
Proof.
  intros H. unfold oid_wf in H. apply Nat.eqb_eq in H.
  assert (V : is_valid (to_string o) = true).
  { unfold is_valid. rewrite to_string_length, to_string_hex, H. reflexivity. }
  split; [exact V|]. unfold parse. rewrite V. apply pairs_to_string.
Qed.

Lemma to_char_cmp x y : x < 16 -> y < 16 -> bytecmp (to_char x) (to_char y) = N.compare x y.
Proof.
  intros Hx Hy. unfold bytecmp. rewrite !to_char_val by assumption.
  destruct (N.ltb_spec x 10), (N.ltb_spec y 10); destruct (N.compare_spec x y); subst;
  try (apply N.compare_eq_iff; lia); try (apply N.compare_lt_iff; lia); try (apply N.compare_gt_iff; lia).
Qed.

Lemma to_string_cmp a b : length a = length b -> bcmp (to_string a) (to_string b) = bcmp a b.
Proof.
  revert b. induction a as [|x a IH]; intros [|y b] L; try discriminate; [reflexivity|].
  change (to_string (x :: a)) with (to_char (N_of_byte x / 16) :: to_char (N_of_byte x mod 16) :: to_string a).
  change (to_string (y :: b)) with (to_char (N_of_byte y / 16) :: to_char (N_of_byte y mod 16) :: to_string b).
  pose proof (N_of_byte_lt x). pose proof (N_of_byte_lt y).
  cbn [bcmp]. rewrite !to_char_cmp by lia. rewrite IH by (injection L; auto).
  unfold bytecmp.
  destruct (N.compare_spec (N_of_byte x) (N_of_byte y)) as [E|E|E].
  - rewrite E, !N.compare_refl. reflexivity.
  - destruct (N.compare_spec (N_of_byte x / 16) (N_of_byte y / 16)); [|reflexivity|lia].
    destruct (N.compare_spec (N_of_byte x mod 16) (N_of_byte y mod 16)); [lia|reflexivity|lia].
  - destruct (N.compare_spec (N_of_byte x / 16) (N_of_byte y / 16)); [|lia|reflexivity].
    destruct (N.compare_spec (N_of_byte x mod 16) (N_of_byte y mod 16)); [lia|lia|reflexivity].
Qed.

Lemma hex_lower c : is_hex c = true -> from_char c < 16 /\ to_char (from_char c) = lower c.
Proof.
  destruct c as [[] [] [] [] [] [] [] []]; vm_compute; intros H; try discriminate H; split; reflexivity.
Qed.

Lemma pairs_length s : (length (pairs s) = length s / 2)%nat.
Proof.
  assert (G : forall n s, (length s <= n)%nat -> (length (pairs s) = length s / 2)%nat).
  { clear s. induction n as [|n IH]; intros s H.
    - destruct s; [reflexivity|cbn in H; lia].
    - destruct s as [|a [|b s]]; [reflexivity|reflexivity|]. cbn [pairs length]. rewrite IH by (cbn in H; lia). lia. }
  apply (G _ s (le_n _)).
Qed.

Lemma to_string_pairs s : Nat.Even (length s) -> forallb is_hex s = true -> to_string (pairs s) = map lower s.
Proof.
  assert (G : forall n s, (length s <= n)%nat -> Nat.Even (length s) -> forallb is_hex s = true ->
              to_string (pairs s) = map lower s).
  { clear s. induction n as [|n IH]; intros s H Ev Hx.
    - destruct s; [reflexivity|cbn in H; lia].
    - destruct s as [|a [|b s]]; [reflexivity|destruct Ev as [k Ev]; cbn in Ev; lia|].
      cbn [pairs map]. cbn [forallb] in Hx. apply andb_true_iff in Hx as [Ha Hx].
      apply andb_true_iff in Hx as [Hb Hx].
      destruct (hex_lower a Ha) as [La Ea]. destruct (hex_lower b Hb) as [Lb Eb].
      change (to_string (?x :: ?l)) with (to_char (N_of_byte x / 16) :: to_char (N_of_byte x mod 16) :: to_string l).
      rewrite N_of_byte_of_N.
      replace ((from_char a * 16 + from_char b) mod 256 / 16) with (from_char a) by lia.
      replace ((from_char a * 16 + from_char b) mod 256 mod 16) with (from_char b) by lia.
      rewrite Ea, Eb. rewrite IH; auto; [cbn in H; lia|].
      destruct Ev as [k Ev]. cbn [length] in Ev. exists (k - 1)%nat. lia. }
  apply (G _ s (le_n _)).
Qed.

Lemma parse_text s :
  oid_wf (parse s) = true /\
  (is_valid s = true -> to_string (parse s) = map lower s) /\
  (is_valid s = false -> parse s = null_oid).
Proof.
  unfold parse. destruct (is_valid s) eqn:V.
  - unfold is_valid in V. apply andb_true_iff in V as [L Hx]. apply Nat.eqb_eq in L.
    split; [|split].
    + unfold oid_wf. rewrite pairs_length, L. reflexivity.
    + intros _. apply to_string_pairs; [|exact Hx]. rewrite L. exists oid_size. reflexivity.
    + discriminate.
  - split; [reflexivity|]. split; [discriminate|reflexivity].
Qed.

(** generation *)
Lemma be_inj k n m : be k n = be k m -> n mod 256 ^ N.of_nat k = m mod 256 ^ N.of_nat k.
Proof. intros H. rewrite <- !unbe_be, H. reflexivity. Qed.

Lemma app_inj_len {A} (a b c d : list A) : length a = length c -> a ++ b = c ++ d -> a = c /\ b = d.
Proof.
  revert c. induction a as [|x a IH]; intros [|y c] L E; try discriminate; [auto|].
  cbn in *. injection E as -> E. injection L as L. destruct (IH _ L E) as [-> ->]. auto.
Qed.

Lemma gen_inj ts rnd n ts' rnd' n' : ts < 2^32 -> ts' < 2^32 ->
  gen ts rnd n = gen ts' rnd' n' -> ts = ts' /\ n mod 2^24 = n' mod 2^24.
Proof.
  unfold gen. intros Hts Hts' E. 
  apply app_inj_len in E as [E1 E2]; [|rewrite !be_length; reflexivity].
  apply app_inj_len in E2 as [E2 E3]; [|rewrite !be_length; reflexivity].
  apply be_inj in E1. apply be_inj in E3.
  change (256 ^ N.of_nat 4) with (2^32) in E1. change (256 ^ N.of_nat 3) with (2^24) in E3.
  split; lia.
Qed.

Lemma gen_wf ts rnd n : oid_wf (gen ts rnd n) = true.
Proof. unfold oid_wf, gen. rewrite !app_length, !be_length. reflexivity. Qed.

Lemma gen_timestamp ts rnd n : ts < 2^32 -> get_timestamp (gen ts rnd n) = ts.
Proof.
  intros H. unfold get_timestamp, gen. rewrite firstn_app, firstn_all2 by (rewrite be_length; lia).
  rewrite be_length. cbn [Nat.sub firstn]. rewrite app_nil_r, unbe_be.
  change (256 ^ N.of_nat 4) with (2^32). lia.
Qed.

Lemma gen_distinct ts rnd n ts' i j : ts < 2^32 -> ts' < 2^32 -> i < j -> j - i < 2^24 ->
  gen ts rnd (n + i) <> gen ts' rnd (n + j).
Proof.
  intros H H' L D E. apply gen_inj in E as [_ E]; auto. lia.
Qed.

Lemma be_cmp_lt k : forall a b, a < b -> b < 256 ^ N.of_nat k -> bcmp (be k a) (be k b) = Lt.
Proof.
  intros a b Hab Hb.
  assert (G : forall l m, length l = length m -> unbe l < unbe m -> bcmp l m = Lt).
  { clear. induction l as [|x l IH]; intros [|y m] L H; try discriminate.
    rewrite !unbe_cons in H. injection L as L. rewrite L in H.
    pose proof (unbe_lt l). pose proof (unbe_lt m). rewrite L in *.
    cbn [bcmp]. unfold bytecmp. destruct (N.compare_spec (N_of_byte x) (N_of_byte y)) as [E|E|E].
    - rewrite E in H. apply IH; [reflexivity|lia].
    - reflexivity.
    - exfalso. nia. }
  apply G; [rewrite !be_length; reflexivity|]. rewrite !unbe_be, !N.mod_small by lia. exact Hab.
Qed.

Lemma bcmp_app_lt a b c d : bcmp a b = Lt -> length a = length b -> bcmp (a ++ c) (b ++ d) = Lt.
Proof.
  revert b. induction a as [|x a IH]; intros [|y b] H L; try discriminate.
  cbn in *. destruct (bytecmp x y); [apply IH; auto| exact H|exact H].
Qed.

(** ids generated in a later second compare greater *)
Lemma gen_order ts rnd n ts' rnd' n' : ts < ts' -> ts' < 2^32 -> oid_cmp (gen ts rnd n) (gen ts' rnd' n') = Lt.
Proof.
  intros H H'. unfold oid_cmp, gen. apply bcmp_app_lt; [|rewrite !be_length; reflexivity].
  rewrite !N.mod_small by lia. apply be_cmp_lt; [exact H|exact H'].
Qed.

Lemma be_mod k n : be k (n mod 256 ^ N.of_nat k) = be k n.
Proof.
  rewrite <- (be_unbe (be k n)), unbe_be, be_length.
  rewrite <- (be_unbe (be k (n mod 256 ^ N.of_nat k))), unbe_be, be_length.
  rewrite N.mod_mod by (apply N.pow_nonzero; discriminate). reflexivity.
Qed.

Lemma gen_repeats ts rnd n : n < 2^32 - 2^24 -> gen ts rnd (n + 2^24) = gen ts rnd n.
Proof.
  intros H. unfold gen. do 2 f_equal.
  rewrite <- (be_mod 3 ((n + 2^24) mod 2^32)), <- (be_mod 3 (n mod 2^32)).
  change (256 ^ N.of_nat 3) with (2^24). f_equal. lia.
Qed.
