From Verif Require Import Bytes Outcome TapeModel TapeSpec.
From Coq Require Import ZifyBool ZifyNat ZifyN.
Local Open Scope N_scope.
Ltac Zify.zify_post_hook ::= Z.div_mod_to_equations.

Lemma nocarry a b n : a < 2 ^ n -> N.lor a (b * 2 ^ n) = a + b * 2 ^ n.
Proof.
  intros H. assert (L : N.land a (b * 2 ^ n) = 0).
  { apply N.bits_inj. intros k. rewrite N.land_spec, N.bits_0. destruct (N.lt_ge_cases k n) as [X|X].
    - rewrite N.mul_pow2_bits_low by exact X. apply andb_false_r.
    - destruct (N.eq_dec a 0) as [->|Ha]; [rewrite N.bits_0; reflexivity|].
      rewrite (N.bits_above_log2 a k); [reflexivity|]. apply (N.lt_le_trans _ n); [|exact X].
      apply N.log2_lt_pow2; lia. }
  rewrite <- N.lxor_lor by exact L. symmetry. apply N.add_nocarry_lxor. exact L.
Qed.

Lemma tagged_ok val t : val < two56 -> t < 256 -> tagged val t = val + t * two56.
Proof.
  intros H T. unfold tagged. rewrite N.mod_small by (unfold two56, two64 in *; lia).
  unfold two56 in *. apply nocarry. exact H.
Qed.
Lemma tagged_type val t : val < two56 -> t < 256 -> tagged val t / two56 = t.
Proof. intros H T. rewrite tagged_ok by assumption. unfold two56 in *. lia. Qed.
Lemma tagged_value val t : val < two56 -> t < 256 -> tagged val t mod two56 = val.
Proof. intros H T. rewrite tagged_ok by assumption. unfold two56 in *. lia. Qed.

Lemma pattern_lt k z : pattern k z < 2 ^ bits k.
Proof. unfold pattern. destruct k; cbn [bits]; change (2 ^ _)%Z with (2 ^ (Z.of_N 8))%Z || idtac; cbn; lia. Qed.
Lemma of_pattern_mod k n m : n mod 2 ^ bits k = m mod 2 ^ bits k -> of_pattern k n = of_pattern k m.
Proof. unfold of_pattern. intros ->. reflexivity. Qed.
Lemma cast_ok k z : fits k z = true -> cast k z = z.
Proof.
  unfold cast, of_pattern, pattern, fits. rewrite andb_true_iff. intros [A B].
  assert (E : Z.of_N (Z.to_N (z mod 2 ^ Z.of_N (bits k)) mod 2 ^ bits k) = (z mod 2 ^ Z.of_N (bits k))%Z).
  { pose proof (pattern_lt k z) as P. unfold pattern in P. rewrite N.mod_small by exact P. rewrite Z2N.id; [reflexivity|].
    apply Z.mod_pos_bound. destruct k; reflexivity. }
  cbv zeta. rewrite E. destruct k; cbn [signed bits andb] in *; unfold imin, imax in *; cbn [signed bits] in *;
  repeat match goal with H : context [Z.pow ?a ?b] |- _ => let v := eval vm_compute in (Z.pow a b) in change (Z.pow a b) with v in * end;
  repeat match goal with |- context [Z.pow ?a ?b] => let v := eval vm_compute in (Z.pow a b) in change (Z.pow a b) with v in * end;
  try (destruct (_ <? _)%Z eqn:Q); lia.
Qed.
Lemma fits_iff k z : (imin k <= z <= imax k)%Z <-> fits k z = true.
Proof. unfold fits. lia. Qed.

(** ** The tape only grows *)
Definition ext (d e : doc) : Prop := (exists ws, tape e = tape d ++ ws) /\ exists s, sbuf e = sbuf d ++ s.
Lemma ext_refl d : ext d d. Proof. split; [exists []|exists []]; symmetry; apply app_nil_r. Qed.
Lemma ext_trans a b c : ext a b -> ext b c -> ext a c.
Proof.
  intros [[w1 E1] [s1 F1]] [[w2 E2] [s2 F2]]. split; [exists (w1 ++ w2)|exists (s1 ++ s2)];
  rewrite app_assoc; [rewrite <- E1|rewrite <- F1]; assumption.
Qed.
Lemma build_ext j d v : ext d (build j d v).
Proof.
  split.
  - destruct v as [|b|[]|n|n|s]; cbn; eexists; reflexivity.
  - destruct v as [|b|[]|n|n|s]; cbn; try (exists []; symmetry; apply app_nil_r). eexists. reflexivity.
Qed.
Lemma build_all_ext l : forall d, ext d (build_all d l).
Proof.
  induction l as [|[j v] l IH]; intros d; [apply ext_refl|]. cbn. eapply ext_trans; [apply build_ext|apply IH].
Qed.
Lemma word_ext d e i w : ext d e -> word d i = Ok w -> word e i = Ok w.
Proof.
  intros [[ws E] _] H. unfold word in *. destruct (nth_error (tape d) i) eqn:N; [|discriminate].
  rewrite E, nth_error_app1, N by (apply nth_error_Some; congruence). exact H.
Qed.
Lemma next_int_ext k d e i z : ext d e -> next_int k d i = Ok z -> next_int k e i = Ok z.
Proof.
  intros X. unfold next_int. destruct (bits k <? 64), (bits k =? 64).
  1,2: destruct (word d i) eqn:A; [|discriminate]; rewrite (word_ext _ _ _ _ X A); auto.
  - destruct (word d (S i)) eqn:A; [|discriminate]. rewrite (word_ext _ _ _ _ X A). auto.
  - destruct (word d (S i)) eqn:A; [|discriminate]. rewrite (word_ext _ _ _ _ X A). cbn [rbind].
    destruct (word d (S (S i))) eqn:B; [|discriminate]. rewrite (word_ext _ _ _ _ X B). auto.
Qed.
Lemma get_int_ext k d e i z : ext d e -> get_int k d i = Ok z -> get_int k e i = Ok z.
Proof.
  intros X. unfold get_int, tape_type. destruct (word d i) eqn:A; [|discriminate]. rewrite (word_ext _ _ _ _ X A). cbn [rbind].
  destruct (kind_of _) as [f|]; [|auto]. destruct (direct k f); unfold conv, cast_from.
  all: destruct (next_int f d i) eqn:B; [|discriminate]; rewrite (next_int_ext _ _ _ _ _ X B); auto.
Qed.
Lemma get_string_ext d e i s : ext d e -> get_string d i = Ok s -> get_string e i = Ok s.
Proof.
  intros X. unfold get_string, tape_type, tape_value. destruct (word d i) eqn:A; [|discriminate]. rewrite (word_ext _ _ _ _ X A). cbn [rbind].
  destruct (negb _); [auto|]. destruct X as [_ [t E]]. rewrite E, app_length.
  set (o := N.to_nat (a mod two56)). destruct (Nat.leb_spec (o + 4) (length (sbuf d))) as [L|L]; [|discriminate].
  replace (o + 4 <=? length (sbuf d) + length t)%nat with true by lia.
  assert (F : firstn 4 (skipn o (sbuf d ++ t)) = firstn 4 (skipn o (sbuf d))).
  { rewrite skipn_app, firstn_app, skipn_length. replace (4 - (length (sbuf d) - o))%nat with 0%nat by lia. cbn [firstn]. apply app_nil_r. }
  rewrite F. set (n := N.to_nat (unle _)). destruct (Nat.leb_spec (o + 4 + n) (length (sbuf d))) as [M|M]; [|discriminate].
  replace (o + 4 + n <=? length (sbuf d) + length t)%nat with true by lia.
  rewrite skipn_app, firstn_app, skipn_length. replace (n - (length (sbuf d) - (o + 4)))%nat with 0%nat by lia. cbn [firstn]. rewrite app_nil_r. auto.
Qed.
Lemma reads_ext d e i v : ext d e -> reads d i v -> reads e i v.
Proof.
  intros X (A & B & C). unfold reads, tape_type, is_null in *.
  destruct (word d i) as [w|] eqn:W; [|discriminate]. pose proof (word_ext _ _ _ _ X W) as W'. rewrite W'.
  split; [exact A|]. split; [exact B|]. destruct v as [|b|k z|n|n|s]; [exact I|..].
  - unfold get_bool in *. rewrite W in C. rewrite W'. exact C.
  - eapply get_int_ext; eauto.
  - unfold get_float_same in *. rewrite W in C. rewrite W'. exact C.
  - unfold get_double_same in *. rewrite W in C. rewrite W'. cbn [rbind] in *. destruct (w / two56 =? T_DOUBLE); [|exact C].
    destruct (word d (S i)) eqn:Y; [|discriminate]. rewrite (word_ext _ _ _ _ X Y). exact C.
  - eapply get_string_ext; eauto.
Qed.

(** ** One value *)
Lemma word_new d ws x : word {| tape := tape d ++ x :: ws; sbuf := sbuf d |} (next_element d) = Ok x.
Proof. unfold word, next_element. cbn [tape]. rewrite nth_error_app2 by lia. rewrite Nat.sub_diag. reflexivity. Qed.
Lemma word_new1 d ws x y : word {| tape := tape d ++ x :: y :: ws; sbuf := sbuf d |} (S (next_element d)) = Ok y.
Proof. unfold word, next_element. cbn [tape]. rewrite nth_error_app2 by lia. replace (S (length (tape d)) - length (tape d))%nat with 1%nat by lia. reflexivity. Qed.
Lemma word_new2 d ws x y z : word {| tape := tape d ++ x :: y :: z :: ws; sbuf := sbuf d |} (S (S (next_element d))) = Ok z.
Proof. unfold word, next_element. cbn [tape]. rewrite nth_error_app2 by lia. replace (S (S (length (tape d))) - length (tape d))%nat with 2%nat by lia. reflexivity. Qed.

Lemma memcpy_lt junk nb val : nb <= 56 -> val < 2 ^ nb -> junk < two56 -> memcpy_low junk nb val < two56 /\ memcpy_low junk nb val mod 2 ^ nb = val.
Proof.
  intros B V J. unfold memcpy_low. assert (P : 2 ^ nb <> 0) by (apply N.pow_nonzero; discriminate). split.
  - assert (Q : two56 = 2 ^ (56 - nb) * 2 ^ nb) by (unfold two56; rewrite <- N.pow_add_r; f_equal; lia).
    assert (R : junk / 2 ^ nb < 2 ^ (56 - nb)).
    { apply N.div_lt_upper_bound; [exact P|]. rewrite N.mul_comm, <- Q. exact J. }
    rewrite Q. nia.
  - rewrite N.mod_add by exact P. apply N.mod_small. exact V.
Qed.
Lemma tagged_low val t nb : nb <= 56 -> val < two56 -> t < 256 -> tagged val t mod 2 ^ nb = val mod 2 ^ nb.
Proof.
  intros B V T. rewrite tagged_ok by assumption.
  replace two56 with (2 ^ (56 - nb) * 2 ^ nb) by (unfold two56; rewrite <- N.pow_add_r; f_equal; lia).
  rewrite N.mul_assoc. apply N.mod_add. apply N.pow_nonzero. discriminate.
Qed.

Lemma kind_of_code k : kind_of (code k) = Some k. Proof. destruct k; reflexivity. Qed.
Lemma code_lt k : code k < 256. Proof. destruct k; reflexivity. Qed.
Lemma get_same k d i z : tape_type d i = Ok (code k) -> next_int k d i = Ok z -> fits k z = true -> get_int k d i = Ok (Val z).
Proof.
  intros T I F. unfold get_int. rewrite T. cbn [rbind]. rewrite kind_of_code.
  assert (D : direct k k = true) by (destruct k; reflexivity). rewrite D. unfold conv. rewrite I. cbn [rbind]. rewrite cast_ok by exact F. reflexivity.
Qed.
Lemma not_null w : w / two56 <> 127 -> (w =? (T_NA * two56) mod two64) = false.
Proof. intros H. apply N.eqb_neq. intros ->. apply H. reflexivity. Qed.

Lemma le4_unle n : n < 2 ^ 32 -> unle (le4 n) = n.
Proof. intros H. unfold unle, le4. rewrite rev_involutive, unbe_be. apply N.mod_small. exact H. Qed.
Lemma le4_length n : length (le4 n) = 4%nat. Proof. unfold le4. rewrite rev_length, be_length. reflexivity. Qed.

Lemma build_reads j d v : scalar_ok v -> tag_safe j v -> N.of_nat (length (sbuf d)) < 2 ^ 56 ->
  reads (build j d v) (next_element d) v.
Proof.
  intros OK TS SB. destruct v as [|b|k z|n|n|s]; unfold reads, build, tape_type, is_null.
  - rewrite word_new. cbn [rbind]. repeat split; reflexivity.
  - unfold get_bool. rewrite word_new. cbn [rbind]. destruct b; repeat split; reflexivity.
  - cbn [scalar_ok] in OK. apply fits_iff in OK. cbn [type_code].
    assert (GEN : forall (w : N) ws, w / two56 = code k -> next_int k {| tape := tape d ++ w :: ws; sbuf := sbuf d |} (next_element d) = Ok z ->
      (do w0 <- word {| tape := tape d ++ w :: ws; sbuf := sbuf d |} (next_element d); Ok (w0 / two56)) = Ok (code k) /\
      (do w0 <- word {| tape := tape d ++ w :: ws; sbuf := sbuf d |} (next_element d); Ok (w0 =? (T_NA * two56) mod two64)) = Ok false /\
      get_int k {| tape := tape d ++ w :: ws; sbuf := sbuf d |} (next_element d) = Ok (Val z)).
    { intros w ws T I. assert (TT : tape_type {| tape := tape d ++ w :: ws; sbuf := sbuf d |} (next_element d) = Ok (code k)).
      { unfold tape_type. rewrite word_new. cbn [rbind]. rewrite T. reflexivity. }
      split; [exact TT|]. split.
      - rewrite word_new. cbn [rbind]. rewrite not_null; [reflexivity|]. rewrite T. destruct k; discriminate.
      - apply get_same; assumption. }
    assert (SM : forall w ws, bits k <? 64 = true -> w mod 2 ^ bits k = pattern k z -> next_int k {| tape := tape d ++ w :: ws; sbuf := sbuf d |} (next_element d) = Ok z).
    { intros w ws B M. unfold next_int. rewrite B, word_new. cbn [rbind].
      rewrite (of_pattern_mod k w (pattern k z)); [f_equal; apply (cast_ok k z OK)|]. rewrite M. symmetry. apply N.mod_small, pattern_lt. }
    assert (PL := pattern_lt k z).
    destruct k; cbn [bits] in *.
    1,3,5: apply GEN; [apply tagged_type; [unfold two56; lia|apply code_lt]|apply SM; [reflexivity|]; rewrite tagged_low; [apply N.mod_small; exact PL|lia|unfold two56; lia|apply code_lt]].
    + destruct (memcpy_lt j 8 _ ltac:(lia) PL TS) as [M1 M2].
      apply GEN; [apply tagged_type; [exact M1|apply code_lt]|apply SM; [reflexivity|]; rewrite tagged_low; [exact M2|lia|exact M1|apply code_lt]].
    + destruct (memcpy_lt j 16 _ ltac:(lia) PL TS) as [M1 M2].
      apply GEN; [apply tagged_type; [exact M1|apply code_lt]|apply SM; [reflexivity|]; rewrite tagged_low; [exact M2|lia|exact M1|apply code_lt]].
    + destruct (memcpy_lt j 32 _ ltac:(lia) PL TS) as [M1 M2].
      apply GEN; [apply tagged_type; [exact M1|apply code_lt]|apply SM; [reflexivity|]; rewrite tagged_low; [exact M2|lia|exact M1|apply code_lt]].
    + apply GEN.
      * apply tagged_type; [|apply code_lt]. cbn [tag_safe] in TS. unfold pattern, two56. unfold fits, imin, imax in OK. cbn in *. lia.
      * unfold next_int. cbn [bits]. change (64 <? 64) with false. change (64 =? 64) with true. cbv iota. rewrite word_new1. cbn [rbind]. f_equal. apply (cast_ok U64 z OK).
    + apply GEN; [apply tagged_type; reflexivity|].
      unfold next_int. cbn [bits]. change (64 <? 64) with false. change (64 =? 64) with true. cbv iota. rewrite word_new1. cbn [rbind]. f_equal. apply (cast_ok I64 z OK).
    + apply GEN; [apply tagged_type; reflexivity|].
      unfold next_int. cbn [bits]. change (128 <? 64) with false. change (128 =? 64) with false. cbv iota. rewrite word_new1, word_new2. cbn [rbind]. f_equal.
      replace (pattern I128 z mod two64 + pattern I128 z / two64 * two64) with (pattern I128 z) by (rewrite (N.div_mod (pattern I128 z) two64) at 1 by discriminate; lia).
      apply (cast_ok I128 z OK).
  - cbn [scalar_ok tag_safe] in *. destruct (memcpy_lt j 32 n ltac:(lia) OK TS) as [M1 M2].
    assert (T : tagged (memcpy_low j 32 n) T_FLOAT / two56 = T_FLOAT) by (apply tagged_type; [exact M1|reflexivity]).
    unfold get_float_same. rewrite word_new. cbn [rbind]. split; [rewrite T; reflexivity|]. split; [rewrite not_null; [reflexivity|rewrite T; discriminate]|].
    rewrite T, N.eqb_refl. f_equal. f_equal. rewrite tagged_low; [exact M2|lia|exact M1|reflexivity].
  - unfold get_double_same. rewrite word_new, word_new1. cbn [rbind]. repeat split; reflexivity.
  - cbn [scalar_ok] in OK.
    assert (L : N.of_nat (length (sbuf d)) < two56) by exact SB.
    assert (W : word {| tape := tape d ++ [tagged (N.of_nat (length (sbuf d))) T_STRING]; sbuf := sbuf d ++ string_bytes s |} (next_element d) = Ok (tagged (N.of_nat (length (sbuf d))) T_STRING)).
    { unfold word, next_element. cbn [tape]. rewrite nth_error_app2 by lia. rewrite Nat.sub_diag. reflexivity. }
    assert (T : tagged (N.of_nat (length (sbuf d))) T_STRING / two56 = T_STRING) by (apply tagged_type; [exact L|reflexivity]).
    assert (V : tagged (N.of_nat (length (sbuf d))) T_STRING mod two56 = N.of_nat (length (sbuf d))) by (apply tagged_value; [exact L|reflexivity]).
    unfold get_string, tape_type, tape_value. rewrite W. cbn [rbind]. rewrite T, V. split; [reflexivity|]. split.
    { rewrite not_null; [reflexivity|rewrite T; discriminate]. }
    rewrite N.eqb_refl. cbn [negb sbuf]. rewrite Nat2N.id. cbv zeta.
    assert (SBs : string_bytes s = le4 (N.of_nat (length s)) ++ s ++ [byte_of_N 0]).
    { unfold string_bytes. rewrite N.mod_small by exact OK. rewrite Nat2N.id, firstn_all. reflexivity. }
    rewrite SBs, !app_length, le4_length. cbn [length].
    replace (length (sbuf d) + 4 <=? length (sbuf d) + (4 + (length s + 1)))%nat with true by lia.
    assert (F : firstn 4 (skipn (length (sbuf d)) (sbuf d ++ le4 (N.of_nat (length s)) ++ s ++ [byte_of_N 0])) = le4 (N.of_nat (length s))).
    { rewrite skipn_app, skipn_all, Nat.sub_diag. cbn [skipn app]. rewrite firstn_app, le4_length, Nat.sub_diag, firstn_O, app_nil_r.
      apply firstn_all2. rewrite le4_length. lia. }
    rewrite F, le4_unle, Nat2N.id by exact OK.
    replace (length (sbuf d) + 4 + length s <=? length (sbuf d) + (4 + (length s + 1)))%nat with true by lia.
    f_equal. f_equal. rewrite app_assoc, skipn_app, app_length, le4_length.
    rewrite skipn_all2 by (rewrite app_length, le4_length; lia). rewrite Nat.sub_diag. cbn [skipn app].
    rewrite firstn_app, Nat.sub_diag, firstn_all. cbn [firstn]. apply app_nil_r.
Qed.

Lemma build_all_app l1 l2 d : build_all d (l1 ++ l2) = build_all (build_all d l1) l2.
Proof. revert d. induction l1 as [|[j v] l IH]; intros d; cbn; auto. Qed.

Lemma scalar_round_trip d l1 j v l2 : scalar_ok v -> tag_safe j v -> N.of_nat (length (sbuf (build_all d l1))) < 2 ^ 56 ->
  reads (build_all d (l1 ++ (j, v) :: l2)) (next_element (build_all d l1)) v.
Proof.
  intros OK TS SB. rewrite build_all_app. cbn [build_all]. eapply reads_ext; [apply build_all_ext|]. apply build_reads; assumption.
Qed.

(** ** Conversions *)
Ltac pows := repeat match goal with
  | H : context [Z.pow ?a ?b] |- _ => let v := eval vm_compute in (Z.pow a b) in change (Z.pow a b) with v in H
  | |- context [Z.pow ?a ?b] => let v := eval vm_compute in (Z.pow a b) in change (Z.pow a b) with v end.

Lemma get_int_value d i from to z : tape_type d i = Ok (code from) -> next_int from d i = Ok z -> fits from z = true ->
  get_int to d i = Ok (if wraps from to z then Val (z mod 2 ^ Z.of_N (bits to) - (if signed to then 2 ^ Z.of_N (bits to) else 0))%Z
                       else if fits to z then Val z else NUMBER_OUT_OF_RANGE).
Proof.
  intros T I F. unfold get_int. rewrite T. cbn [rbind]. rewrite kind_of_code. unfold conv, cast_from. rewrite I. cbn [rbind].
  assert (C : forall k, fits k z = true -> cast k z = z) by (intros k; apply cast_ok).
  unfold fits in F.
  destruct (wraps from to z) eqn:W.
  - unfold wraps in W. apply andb_true_iff in W as [W1 W2].
    assert (X : cast to z = (z mod 2 ^ Z.of_N (bits to) - (if signed to then 2 ^ Z.of_N (bits to) else 0))%Z).
    { unfold cast, of_pattern, pattern.
      assert (E : Z.of_N (Z.to_N (z mod 2 ^ Z.of_N (bits to)) mod 2 ^ bits to) = (z mod 2 ^ Z.of_N (bits to))%Z).
      { pose proof (pattern_lt to z) as P. unfold pattern in P. rewrite N.mod_small by exact P. rewrite Z2N.id; [reflexivity|].
        apply Z.mod_pos_bound. destruct to; reflexivity. }
      rewrite E. destruct from, to; try discriminate; unfold imin, imax in *; cbn [signed bits andb] in *; try lia.
      pows. assert (z mod 256 = z)%Z as -> by lia. rewrite W2. reflexivity. }
    rewrite <- X. destruct from, to; try discriminate; cbn [direct signed]; try reflexivity;
    unfold imin, imax in *; cbn [signed bits] in *; pows; replace (z <? 0)%Z with false by lia; reflexivity.
  - assert (D : direct to from = true -> fits to z = true).
    { intros D. unfold wraps in W. unfold fits. destruct from, to; try discriminate; cbn [unsafe_pair andb] in W; unfold imin, imax in *; cbn [signed bits] in *; pows; lia. }
    destruct (direct to from) eqn:E; [rewrite (D eq_refl), C by (apply D; reflexivity); reflexivity|].
    destruct (fits to z) eqn:G.
    + rewrite (C to G). unfold fits in G. destruct (signed from) eqn:SF.
      * destruct (signed to) eqn:ST; [replace ((imax to <? z) || (z <? imin to))%Z with false by lia; reflexivity|].
        replace (z <? 0)%Z with false; [reflexivity|]. unfold imin in G. rewrite ST in G. lia.
      * replace (imax to <? z)%Z with false by lia. reflexivity.
    + unfold fits in G. unfold wraps in W. destruct from, to; try discriminate; cbn [unsafe_pair andb signed] in *; unfold imin, imax in *; cbn [signed bits] in *; pows;
      match goal with |- context [if ?c then _ else _] => replace c with true by lia end; reflexivity.
Qed.

Lemma of_pattern_fits k n : fits k (of_pattern k n) = true.
Proof.
  unfold of_pattern. assert (B : (0 <= Z.of_N (n mod 2 ^ bits k) < 2 ^ Z.of_N (bits k))%Z).
  { split; [lia|]. assert (X : n mod 2 ^ bits k < 2 ^ bits k) by (apply N.mod_lt, N.pow_nonzero; discriminate).
    apply N2Z.inj_lt in X. rewrite N2Z.inj_pow in X. exact X. }
  set (z := Z.of_N _) in *. clearbody z. unfold fits, imin, imax. destruct k; cbn [signed bits andb] in *; pows; try (destruct (_ <? _)%Z eqn:Q); lia.
Qed.
Lemma reads_next d i k z : reads d i (SInt k z) -> tape_type d i = Ok (code k) /\ next_int k d i = Ok z /\ fits k z = true.
Proof.
  intros (T & _ & G). cbn [type_code] in T. split; [exact T|]. unfold get_int in G. rewrite T in G. cbn [rbind] in G. rewrite kind_of_code in G.
  assert (D : direct k k = true) by (destruct k; reflexivity). rewrite D in G. unfold conv in G.
  destruct (next_int k d i) as [r|] eqn:I; [|discriminate]. cbn [rbind] in G. injection G as G.
  assert (F : fits k r = true).
  { unfold next_int in I. destruct (bits k <? 64), (bits k =? 64).
    1,2: destruct (word d i); [|discriminate]; injection I as <-; apply of_pattern_fits.
    - destruct (word d (S i)); [|discriminate]. injection I as <-. apply of_pattern_fits.
    - destruct (word d (S i)); [|discriminate]. cbn [rbind] in I. destruct (word d (S (S i))); [|discriminate]. injection I as <-. apply of_pattern_fits. }
  rewrite cast_ok in G by exact F. subst. auto.
Qed.

Lemma typed_read d i from z to : reads d i (SInt from z) -> wraps from to z = false ->
  get_int to d i = Ok (if fits to z then Val z else NUMBER_OUT_OF_RANGE).
Proof. intros R W. destruct (reads_next _ _ _ _ R) as (T & I & F). rewrite (get_int_value d i from to z T I F), W. reflexivity. Qed.
Lemma typed_read_wraps d i from z to : reads d i (SInt from z) -> wraps from to z = true ->
  exists z', get_int to d i = Ok (Val z') /\ z' <> z.
Proof.
  intros R W. destruct (reads_next _ _ _ _ R) as (T & I & F). rewrite (get_int_value d i from to z T I F), W. eexists. split; [reflexivity|].
  unfold wraps in W. unfold fits in F. apply andb_true_iff in W as [W1 W2].
  destruct from, to; try discriminate; unfold imin, imax in *; cbn [signed bits] in *; pows; lia.
Qed.

Lemma other_types d i v : reads d i v -> match v with SInt _ _ | SFloat _ | SDouble _ => False | _ => True end ->
  (forall to, get_int to d i = Ok INCORRECT_TYPE) /\
  (match v with SBool _ => True | _ => get_bool d i = Ok INCORRECT_TYPE end) /\
  (match v with SString _ => True | _ => get_string d i = Ok INCORRECT_TYPE end).
Proof.
  intros (T & _ & _) V. unfold get_int, get_bool, get_string. unfold tape_type in *.
  destruct (word d i) as [w|]; cbn [rbind] in *; [|discriminate]. injection T as T. rewrite T.
  destruct v; try contradiction; cbn; repeat split; reflexivity.
Qed.
