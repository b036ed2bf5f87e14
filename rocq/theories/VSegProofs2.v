From Coq Require Import ZifyNat ZifyN ZifyBool.
From Verif Require Import Bytes Outcome ValidModel ValidSpec ValidProofs VSegModel VSegSpec VSegProofs.
Ltac Zify.zify_post_hook ::= Z.div_mod_to_equations.
Local Open Scope nat_scope.
Local Opaque N.testbit MAX_ENTRY.

(** ** Scans *)
Lemma word_loop_ok ws se : Forall w64 ws -> forall k i m, rok m -> i + k <= length (W m) -> se + i + k <= length ws ->
  exists m', word_loop k i ws se m = Ok m' /\ rok m' /\ r_count m' = r_count m /\ length (W m') = length (W m) /\
    forall j, tb (W m') j = if (i <=? j / 64) && (j / 64 <? i + k) then tb ws (64 * se + j) else tb (W m) j.
Proof.
  intros Fw. induction k as [|k IH]; intros i m Hm Hi Hs; cbn [word_loop].
  - exists m. split; [reflexivity|]. split; [exact Hm|]. split; [reflexivity|]. split; [reflexivity|]. intros j.
    replace ((i <=? j / 64) && (j / 64 <? i + 0)) with false by lia. reflexivity.
  - rewrite (nth_error_nth' ws (se + i) 0%N) by lia. set (w := nth (se + i) ws 0%N).
    assert (Ww : w64 w) by (apply nth_w64; exact Fw).
    assert (M : exists m1, (if (match r_words m with None => true | Some _ => false end) && (w =? MAX_ENTRY)%N then Ok m
                else if i <? length (words_of m) then Ok (RMask (Some (upd i w (words_of m))) (r_count m))
                else Err UB) = Ok m1 /\ rok m1 /\ r_count m1 = r_count m /\ length (W m1) = length (W m) /\
              forall j, tb (W m1) j = if j / 64 =? i then N.testbit w (N.of_nat (j mod 64)) else tb (W m) j).
    { assert (G : exists m1, (if i <? length (words_of m) then Ok (RMask (Some (upd i w (words_of m))) (r_count m)) else Err UB) = Ok m1 /\
              rok m1 /\ r_count m1 = r_count m /\ length (W m1) = length (W m) /\
              forall j, tb (W m1) j = if j / 64 =? i then N.testbit w (N.of_nat (j mod 64)) else tb (W m) j).
      { unfold W in *. replace (i <? length (words_of m)) with true by lia. eexists. split; [reflexivity|].
        destruct Hm as [L F]. unfold rok, W in *. cbn [words_of r_words r_count].
        change (words_of (RMask ?a ?b)) with (upd i w (words_of m)). rewrite upd_length.
        split; [split; [exact L | apply upd_w64; assumption]|]. split; [reflexivity|]. split; [reflexivity|].
        intros j. apply tb_upd. lia. }
      destruct (r_words m) as [rw|] eqn:Er; [exact G|]. destruct (N.eqb_spec w MAX_ENTRY) as [E|E]; [|exact G].
      exists m. split; [reflexivity|]. split; [exact Hm|]. split; [reflexivity|]. split; [reflexivity|]. intros j.
      destruct (Nat.eqb_spec (j / 64) i) as [X|X]; [|reflexivity]. rewrite E, tb_max. unfold tb, W, words_of in *. rewrite Er in *.
      unfold fresh in Hi at 1. rewrite repeat_length in Hi. rewrite fresh_nth by lia. rewrite tb_max. lia. }
    destruct M as (m1 & -> & Hm1 & Hc1 & Hl1 & B). cbn [rbind].
    destruct (IH (S i) m1 Hm1 ltac:(lia) ltac:(lia)) as (m' & E & Hm' & Hc' & Hl' & A). exists m'.
    split; [exact E|]. split; [exact Hm'|]. split; [lia|]. split; [lia|]. intros j. rewrite A, B.
    destruct (Nat.eqb_spec (j / 64) i) as [X|X].
    + replace ((S i <=? j / 64) && (j / 64 <? S i + k)) with false by lia. replace ((i <=? j / 64) && (j / 64 <? i + S k)) with true by lia.
      unfold w. rewrite tb_at by lia. f_equal. lia.
    + replace ((i <=? j / 64) && (j / 64 <? i + S k)) with ((S i <=? j / 64) && (j / 64 <? S i + k)) by lia. reflexivity.
Qed.

(** [validity_scan] after the rows were fetched: rows in range read as in the segment if they did before,
    rows after it may be marked as in the segment. *)
Lemma scan_ok g start n m : Forall w64 (g_words g) -> start + n <= 64 * length (g_words g) -> rok m -> n <= r_count m ->
  exists m', scan g start n m = Ok m' /\ rok m' /\ r_count m' = r_count m /\
    (forall j, j < n -> tb (W m') j = tb (g_words g) (start + j) \/ tb (W m') j = tb (W m) j && tb (g_words g) (start + j)) /\
    (forall j, n <= j -> tb (W m') j = tb (W m) j \/
       ((tb (W m') j = tb (g_words g) (start + j) \/ tb (W m') j = tb (W m) j && tb (g_words g) (start + j)) /\ start + j < 64 * length (g_words g))).
Proof.
  intros F H Hm Hc. unfold scan. change BITS with 64. destruct (Nat.eqb_spec (start mod 64) 0) as [E|E].
  - destruct Hm as [L Fm] eqn:Y. clear Y.
    destruct (word_loop_ok (g_words g) (start / 64) F ((n + (64 - 1)) / 64) 0 m Hm ltac:(lia) ltac:(lia)) as (m' & X & Hm' & Hc' & _ & B).
    exists m'. split; [exact X|]. split; [exact Hm'|]. split; [exact Hc'|]. split.
    + intros j Hj. rewrite B. replace ((0 <=? j / 64) && (j / 64 <? 0 + (n + (64 - 1)) / 64)) with true by lia.
      left. f_equal. lia.
    + intros j Hj. rewrite B. destruct ((0 <=? j / 64) && (j / 64 <? 0 + (n + (64 - 1)) / 64)) eqn:C; [|left; reflexivity].
      right. split; [left; f_equal; lia|lia].
  - destruct (scan_partial_ok g start n m 0 F H Hm Hc ltac:(left; reflexivity)) as (m' & X & Hm' & Hc' & A1 & A2).
    exists m'. split; [exact X|]. split; [exact Hm'|]. split; [exact Hc'|]. split.
    + intros j Hj. right. rewrite A1 by lia. replace (0 <=? j) with true by lia. replace (j - 0) with j by lia. reflexivity.
    + intros j Hj. destruct (A2 j Hj) as [P|[P Q]]; [left; exact P|]. replace (j - 0) with j in * by lia. right. split; [right; exact P|exact Q].
Qed.

Lemma fetches_ok g : Forall w64 (g_words g) -> forall n row m off, rok m -> off + n <= r_count m -> row + n <= 64 * length (g_words g) ->
  exists m', fetches g row m off n = Ok m' /\ rok m' /\ r_count m' = r_count m /\
    forall j, tb (W m') j = tb (W m) j && (if (off <=? j) && (j <? off + n) then tb (g_words g) (row + (j - off)) else true).
Proof.
  intros F. induction n as [|n IH]; intros row m off Hm Hc Hr; cbn [fetches].
  - exists m. split; [reflexivity|]. split; [exact Hm|]. split; [reflexivity|]. intros j.
    replace ((off <=? j) && (j <? off + 0)) with false by lia. rewrite andb_true_r. reflexivity.
  - destruct (fetch_row_ok g row m off Hm ltac:(lia) ltac:(lia)) as (m1 & -> & Hm1 & Hc1 & B). cbn [rbind].
    destruct (IH (S row) m1 (S off) Hm1 ltac:(lia) ltac:(lia)) as (m' & E & Hm' & Hc' & A).
    exists m'. split; [exact E|]. split; [exact Hm'|]. split; [lia|]. intros j. rewrite A, B by lia. rewrite <- andb_assoc. f_equal.
    destruct (Nat.eqb_spec j off) as [->|X].
    + replace ((S off <=? off) && (off <? S off + n)) with false by lia. replace ((off <=? off) && (off <? off + S n)) with true by lia.
      rewrite andb_true_r. cbn [negb orb]. f_equal. lia.
    + cbn [negb orb andb]. replace ((off <=? j) && (j <? off + S n)) with ((S off <=? j) && (j <? S off + n)) by lia.
      destruct ((S off <=? j) && (j <? S off + n)) eqn:C; [|reflexivity]. f_equal. lia.
Qed.

(** ** Columns *)
Definition seg_rows (g : seg) : list bool := map (tb (g_words g)) (seq 0 (g_count g)).
Definition content (c : list seg) : list bool := concat (map seg_rows c).
Definition gok (g : seg) : Prop :=
  Forall w64 (g_words g) /\ g_count g <= 64 * length (g_words g) /\
  forall i, g_count g <= i < 64 * length (g_words g) -> tb (g_words g) i = true.

Lemma seg_rows_length g : length (seg_rows g) = g_count g.
Proof. unfold seg_rows. rewrite map_length. apply seq_length. Qed.
Lemma seg_rows_nth g i : i < g_count g -> nth i (seg_rows g) true = tb (g_words g) i.
Proof.
  intros H. unfold seg_rows. rewrite nth_indep with (d' := tb (g_words g) 0) by (rewrite map_length, seq_length; exact H).
  rewrite map_nth, seq_nth by exact H. reflexivity.
Qed.
Lemma content_cons g c : content (g :: c) = seg_rows g ++ content c.
Proof. reflexivity. Qed.
Lemma content_in g c i : i < g_count g -> nth i (content (g :: c)) true = tb (g_words g) i.
Proof. intros H. rewrite content_cons, app_nth1 by (rewrite seg_rows_length; exact H). apply seg_rows_nth. exact H. Qed.
Lemma content_out g c i : g_count g <= i -> nth i (content (g :: c)) true = nth (i - g_count g) (content c) true.
Proof. intros H. rewrite content_cons, app_nth2 by (rewrite seg_rows_length; exact H). rewrite seg_rows_length. reflexivity. Qed.

Definition in_head (c : list seg) (row : nat) : Prop := match c with [] => True | g :: _ => row <= g_count g end.

Lemma scan_flat_ok c : Forall gok c -> forall row off n m, rok m -> off + n <= r_count m -> row + n <= length (content c) ->
  in_head c row -> (off mod 64 = 0 \/ row = 0) ->
  exists m', scan_vector false c row off n m = Ok m' /\ rok m' /\ r_count m' = r_count m /\
    (forall j, j < off + n -> tb (W m') j = tb (W m) j && (if off <=? j then nth (row + (j - off)) (content c) true else true)) /\
    (forall j, off + n <= j -> tb (W m') j = tb (W m) j \/ tb (W m') j = tb (W m) j && nth (row + (j - off)) (content c) true).
Proof.
  induction 1 as [|g c G Gc IH]; intros row off n m Hm Hc Hl Hh O.
  - cbn in Hl. assert (n = 0) by lia. subst n. cbn. exists m. split; [reflexivity|]. split; [exact Hm|]. split; [reflexivity|].
    split; [|intros; left; reflexivity]. intros j Hj. replace (off <=? j) with false by lia. rewrite andb_true_r. reflexivity.
  - cbn [scan_vector]. destruct (Nat.eqb_spec n 0) as [->|Hn].
    + exists m. split; [reflexivity|]. split; [exact Hm|]. split; [reflexivity|].
      split; [|intros; left; reflexivity]. intros j Hj. replace (off <=? j) with false by lia. rewrite andb_true_r. reflexivity.
    + cbn [in_head] in Hh. set (k := Nat.min n (g_count g - row)). destruct G as (Fw & Lw & Tw).
      rewrite content_cons, app_length, seg_rows_length in Hl.
      assert (M : exists m1, (if k =? 0 then Ok m else do m1 <- fetches g row m off k; scan_partial g row k m1 off) = Ok m1 /\
                 rok m1 /\ r_count m1 = r_count m /\
                 (forall j, j < off + k -> tb (W m1) j = tb (W m) j && (if off <=? j then tb (g_words g) (row + (j - off)) else true)) /\
                 (forall j, off + k <= j -> tb (W m1) j = tb (W m) j \/
                    (tb (W m1) j = tb (W m) j && tb (g_words g) (row + (j - off)) /\ row + (j - off) < 64 * length (g_words g)))).
      { destruct (Nat.eqb_spec k 0) as [Z|Z].
        - rewrite Z. exists m. split; [reflexivity|]. split; [exact Hm|]. split; [reflexivity|]. split; [|intros; left; reflexivity].
          intros j Hj. replace (off <=? j) with false by lia. rewrite andb_true_r. reflexivity.
        - destruct (fetches_ok g Fw k row m off Hm ltac:(lia) ltac:(lia)) as (m0 & -> & Hm0 & Hc0 & B). cbn [rbind].
          destruct (scan_partial_ok g row k m0 off Fw ltac:(lia) Hm0 ltac:(lia)) as (m1 & E & Hm1 & Hc1 & A1 & A2).
          { destruct O as [O|O]; [left; exact O|right; subst row; reflexivity]. }
          exists m1. split; [exact E|]. split; [exact Hm1|]. split; [lia|]. split.
          + intros j Hj. rewrite A1, B by lia. rewrite <- andb_assoc. f_equal. destruct (Nat.leb_spec off j).
            * replace (j <? off + k) with true by lia. cbn [andb]. apply andb_diag.
            * reflexivity.
          + intros j Hj. specialize (A2 j Hj). rewrite B in A2. replace ((off <=? j) && (j <? off + k)) with false in A2 by lia.
            rewrite !andb_true_r in A2. exact A2. }
      destruct M as (m1 & -> & Hm1 & Hc1 & B1 & B2). cbn [rbind].
      destruct (Nat.le_gt_cases (g_count g - row) n) as [Hk|Hk].
      * (* the segment is scanned to its end *)
        assert (Ek : k = g_count g - row) by lia.
        destruct (IH 0 (off + k) (n - k) m1 Hm1 ltac:(lia) ltac:(lia)) as (m' & E & Hm' & Hc' & A1 & A2);
          [destruct c; cbn; lia | right; reflexivity |].
        assert (B3 : forall j, off + k <= j -> tb (W m1) j = tb (W m) j).
        { intros j Hj. destruct (B2 j Hj) as [P|[P Q]]; [exact P|]. rewrite P, Tw by lia. apply andb_true_r. }
        exists m'. split; [exact E|]. split; [exact Hm'|]. split; [lia|]. split.
        -- intros j Hj. rewrite A1 by lia. destruct (Nat.leb_spec (off + k) j).
           ++ rewrite B3 by lia. replace (off <=? j) with true by lia. f_equal. rewrite content_out by lia. f_equal. lia.
           ++ rewrite andb_true_r, B1 by lia. destruct (Nat.leb_spec off j); [|reflexivity]. rewrite content_in by lia. reflexivity.
        -- intros j Hj. specialize (A2 j ltac:(lia)). rewrite B3 in A2 by lia. rewrite content_out by lia.
           replace (row + (j - off) - g_count g) with (0 + (j - (off + k))) by lia. exact A2.
      * assert (Ek : k = n) by lia. assert (X : scan_vector false c 0 (off + k) (n - k) m1 = Ok m1) by (rewrite Ek, Nat.sub_diag; destruct c; reflexivity).
        rewrite X. exists m1. split; [reflexivity|]. split; [exact Hm1|]. split; [exact Hc1|]. split.
        -- intros j Hj. rewrite B1 by lia. destruct (Nat.leb_spec off j); [|reflexivity]. rewrite content_in by lia. reflexivity.
        -- intros j Hj. destruct (B2 j ltac:(lia)) as [P|[P Q]]; [left; exact P|].
           destruct (Nat.lt_ge_cases (row + (j - off)) (g_count g)).
           ++ right. rewrite content_in by lia. exact P.
           ++ left. rewrite P, Tw by lia. apply andb_true_r.
Qed.


Lemma column_scan_ok (flat : bool) c row n m : Forall gok c -> rmask_ok m -> clean m -> n <= r_count m -> row + n <= length (content c) -> in_head c row ->
  exists m', (if flat then column_scan_flat c row n m else column_scan c row n m) = Ok m' /\ rok m' /\ r_count m' = r_count m /\
    (forall j, j < n -> rvalid m' j = nth (row + j) (content c) true) /\
    (forall j, j < r_count m -> rvalid m' j = false -> nth (row + j) (content c) true = false).
Proof.
  intros G Mok Cl Hc Hl Hh. pose proof (rok_of m Mok) as Hm.
  assert (Cl' : forall j, j < r_count m -> tb (W m) j = true) by (intros j Hj; rewrite <- rvalid_tb by assumption; apply Cl; exact Hj).
  assert (Fl : exists m', scan_vector false c row 0 n m = Ok m' /\ rok m' /\ r_count m' = r_count m /\
    (forall j, j < n -> rvalid m' j = nth (row + j) (content c) true) /\
    (forall j, j < r_count m -> rvalid m' j = false -> nth (row + j) (content c) true = false)).
  { destruct (scan_flat_ok c G row 0 n m Hm Hc Hl Hh ltac:(left; reflexivity)) as (m' & E & Hm' & Hc' & A1 & A2).
    exists m'. split; [exact E|]. split; [exact Hm'|]. split; [exact Hc'|]. split.
    - intros j Hj. rewrite rvalid_tb by (auto; lia). rewrite A1 by lia. rewrite Cl' by lia. replace (0 <=? j) with true by lia. replace (j - 0) with j by lia. reflexivity.
    - intros j Hj. rewrite rvalid_tb by (auto; lia). destruct (Nat.lt_ge_cases j n).
      + rewrite A1 by lia. rewrite Cl' by lia. replace (0 <=? j) with true by lia. replace (j - 0) with j by lia. auto.
      + specialize (A2 j ltac:(lia)). replace (j - 0) with j in A2 by lia. destruct A2 as [P|P]; rewrite P, Cl' by lia; [discriminate|]. auto. }
  destruct flat; [exact Fl|]. unfold column_scan. destruct (scan_entire c row n) eqn:Se; [|exact Fl]. clear Fl.
  destruct c as [|g c].
  - cbn in Hl. assert (n = 0) by lia. subst n. cbn. exists m. split; [reflexivity|]. split; [exact Hm|]. split; [reflexivity|].
    split; [intros; lia|]. intros j Hj. rewrite Cl by lia. discriminate.
  - cbn [scan_entire] in Se. cbn [in_head] in Hh. cbn [scan_vector]. destruct (Nat.eqb_spec n 0) as [->|Hn].
    + exists m. split; [reflexivity|]. split; [exact Hm|]. split; [reflexivity|].
      split; [intros; lia|]. intros j Hj. rewrite Cl by lia. discriminate.
    + replace (Nat.min n (g_count g - row)) with n by lia. replace (n =? 0) with false by lia.
      inversion G as [|? ? (Fw & Lw & Tw) Gc]. subst.
      destruct (fetches_ok g Fw n row m 0 Hm ltac:(lia) ltac:(lia)) as (m0 & -> & Hm0 & Hc0 & B). cbn [rbind].
      destruct (scan_ok g row n m0 Fw ltac:(lia) Hm0 ltac:(lia)) as (m1 & E & Hm1 & Hc1 & A1 & A2).
      rewrite E. cbn [rbind]. replace (n - n) with 0 by lia.
      assert (X : scan_vector true c 0 (0 + n) 0 m1 = Ok m1) by (destruct c; reflexivity). rewrite X.
      exists m1. split; [reflexivity|]. split; [exact Hm1|]. split; [lia|]. split.
      * intros j Hj. rewrite rvalid_tb by (auto; lia). rewrite content_in by lia. destruct (A1 j Hj) as [P|P]; rewrite P; [reflexivity|].
        rewrite B, Cl' by lia. replace ((0 <=? j) && (j <? 0 + n)) with true by lia. replace (j - 0) with j by lia. cbn [andb]. apply andb_diag.
      * intros j Hj. rewrite rvalid_tb by (auto; lia). destruct (Nat.lt_ge_cases j n).
        -- rewrite content_in by lia. destruct (A1 j ltac:(lia)) as [P|P]; rewrite P; [auto|].
           rewrite B, Cl' by lia. replace ((0 <=? j) && (j <? 0 + n)) with true by lia. replace (j - 0) with j by lia. cbn [andb]. rewrite andb_diag. auto.
        -- specialize (A2 j ltac:(lia)). rewrite B, Cl' in A2 by lia. replace ((0 <=? j) && (j <? 0 + n)) with false in A2 by lia. cbn [andb] in A2.
           destruct A2 as [P|[[P|P] Q]]; rewrite P; [discriminate| |];
             (destruct (Nat.lt_ge_cases (row + j) (g_count g)); [rewrite content_in by lia; auto | rewrite Tw by lia; discriminate]).
Qed.

(** ** Random access *)
Lemma seek_ok c : Forall gok c -> forall row, row < length (content c) ->
  exists g r i, seek c row = (g :: r, i) /\ Forall gok (g :: r) /\ i < g_count g /\
    row + length (content (g :: r)) = length (content c) + i /\
    forall j, nth (i + j) (content (g :: r)) true = nth (row + j) (content c) true.
Proof.
  induction 1 as [|g c G Gc IH]; intros row H; [cbn in H; lia|]. cbn [seek].
  rewrite content_cons, app_length, seg_rows_length in H. destruct (Nat.leb_spec (g_count g) row) as [L|L].
  - destruct c as [|g2 c]; [cbn in H; lia|]. destruct (IH (row - g_count g) ltac:(lia)) as (g' & r & i & E & F & Hi & Hl & Hn).
    exists g', r, i. split; [exact E|]. split; [exact F|]. split; [exact Hi|]. split.
    + rewrite (content_cons g (g2 :: c)), app_length, seg_rows_length. lia.
    + intros j. rewrite Hn. rewrite (content_out g) by lia. f_equal. lia.
  - exists g, c, row. split; [reflexivity|]. split; [constructor; assumption|]. split; [exact L|]. split; [lia|]. reflexivity.
Qed.

(** ** Appends *)
Section Size.
  Variable size : nat.
  Hypothesis big : 128 <= size.

  Lemma new_seg_gok : gok (new_seg size).
  Proof.
    unfold gok, new_seg. cbn [g_words g_count]. rewrite repeat_length. split; [apply (fresh_w64 (size / 8))|]. split; [lia|].
    intros i Hi. unfold tb. change (repeat MAX_ENTRY (size / 8)) with (fresh (size / 8)). rewrite fresh_nth by lia. rewrite tb_max. lia.
  Qed.
  Definition sized (g : seg) : Prop := length (g_words g) = size / 8 /\ g_count g <= max_tuples size.

  Lemma append_loop_ok v idx off count : forall k i ws, Forall w64 ws -> count + i + k <= 64 * length ws ->
    exists ws', append_loop k i ws count v idx off = Ok ws' /\ length ws' = length ws /\ Forall w64 ws' /\
      forall j, tb ws' j = tb ws j && (if (count + i <=? j) && (j <? count + i + k) then v (idx (off + (j - count))) else true).
  Proof.
    induction k as [|k IH]; intros i ws F H; cbn [append_loop].
    - exists ws. split; [reflexivity|]. split; [reflexivity|]. split; [exact F|]. intros j.
      replace ((count + i <=? j) && (j <? count + i + 0)) with false by lia. rewrite andb_true_r. reflexivity.
    - assert (M : exists ws1, (if v (idx (off + i)) then Ok ws else clear ws (count + i)) = Ok ws1 /\ length ws1 = length ws /\ Forall w64 ws1 /\
                forall j, tb ws1 j = tb ws j && (negb (j =? count + i) || v (idx (off + i)))).
      { destruct (v (idx (off + i))).
        - exists ws. split; [reflexivity|]. split; [reflexivity|]. split; [exact F|]. intros j. rewrite orb_true_r, andb_true_r. reflexivity.
        - destruct (clear_ok ws (count + i) F ltac:(lia)) as (ws1 & E & L & F1 & B). exists ws1. split; [exact E|]. split; [exact L|]. split; [exact F1|].
          intros j. rewrite B, orb_false_r. reflexivity. }
      destruct M as (ws1 & -> & L1 & F1 & B). cbn [rbind]. destruct (IH (S i) ws1 F1 ltac:(lia)) as (ws' & E & L' & F' & A).
      exists ws'. split; [exact E|]. split; [lia|]. split; [exact F'|]. intros j. rewrite A, B, <- andb_assoc. f_equal.
      destruct (Nat.eqb_spec j (count + i)) as [->|X].
      + replace ((count + S i <=? count + i) && (count + i <? count + S i + k)) with false by lia.
        replace ((count + i <=? count + i) && (count + i <? count + i + S k)) with true by lia. rewrite andb_true_r. cbn [negb orb].
        replace (count + i - count) with i by lia. reflexivity.
      + cbn [negb orb andb]. replace ((count + i <=? j) && (j <? count + i + S k)) with ((count + S i <=? j) && (j <? count + S i + k)) by lia. reflexivity.
  Qed.

  Lemma seq_move off a : forall n i, map (fun j => off + (j - a)) (seq (a + i) n) = seq (off + i) n.
  Proof.
    induction n as [|n IH]; intros i; cbn [seq map]; [reflexivity|]. f_equal; [lia|].
    specialize (IH (S i)). replace (S (a + i)) with (a + S i) by lia. replace (S (off + i)) with (off + S i) by lia. exact IH.
  Qed.
  Definition vrow (u : uvf) (i : nat) : bool := match u_valid u with None => true | Some v => v (u_idx u i) end.
  Lemma append_ok g u off vcount : gok g -> sized g ->
    exists g', append size g u off vcount = Ok (g', Nat.min vcount (max_tuples size - g_count g)) /\ gok g' /\ sized g' /\
      seg_rows g' = seg_rows g ++ map (vrow u) (seq off (Nat.min vcount (max_tuples size - g_count g))).
  Proof.
    intros (Fw & Lw & Tw) (Ls & Cs). unfold append. set (n := Nat.min vcount (max_tuples size - g_count g)).
    assert (Mx : max_tuples size <= 64 * length (g_words g)) by (unfold max_tuples; rewrite Ls; lia).
    assert (M : exists ws, (match u_valid u with
                | None => Ok (g_words g)
                | Some v => append_loop n 0 (g_words g) (g_count g) v (u_idx u) off end) = Ok ws /\ length ws = length (g_words g) /\ Forall w64 ws /\
              forall j, tb ws j = tb (g_words g) j && (if (g_count g <=? j) && (j <? g_count g + n) then vrow u (off + (j - g_count g)) else true)).
    { unfold vrow. destruct (u_valid u) as [v|].
      - destruct (append_loop_ok v (u_idx u) off (g_count g) n 0 (g_words g) Fw ltac:(lia)) as (ws & E & L & F & B).
        exists ws. split; [exact E|]. split; [exact L|]. split; [exact F|]. intros j. rewrite B, Nat.add_0_r. reflexivity.
      - exists (g_words g). split; [reflexivity|]. split; [reflexivity|]. split; [exact Fw|]. intros j.
        destruct ((g_count g <=? j) && (j <? g_count g + n)); rewrite andb_true_r; reflexivity. }
    destruct M as (ws & E & L & F & B). exists (Seg ws (g_count g + n)). split.
    { destruct (u_valid u); [rewrite E; reflexivity|]. injection E as <-. reflexivity. }
    split; [|split].
    - unfold gok. cbn [g_words g_count]. rewrite L. split; [exact F|]. split; [lia|]. intros i Hi. rewrite B, Tw by lia.
      replace ((g_count g <=? i) && (i <? g_count g + n)) with false by lia. reflexivity.
    - unfold sized. cbn [g_words g_count]. lia.
    - unfold seg_rows. cbn [g_words g_count]. rewrite seq_app, map_app. f_equal.
      + apply map_ext_in. intros j Hj. apply in_seq in Hj. rewrite B. replace (g_count g <=? j) with false by lia. apply andb_true_r.
      + rewrite Nat.add_0_l. replace (seq off n) with (map (fun j => off + (j - g_count g)) (seq (g_count g) n)).
        * rewrite map_map. apply map_ext_in. intros j Hj. apply in_seq in Hj. rewrite B, Tw by lia.
          replace ((g_count g <=? j) && (j <? g_count g + n)) with true by lia. reflexivity.
        * pose proof (seq_move off (g_count g) n 0) as X. rewrite !Nat.add_0_r in X. exact X.
  Qed.

  Lemma content_app a b : content (a ++ b) = content a ++ content b.
  Proof. unfold content. rewrite map_app, concat_app. reflexivity. Qed.
  Lemma content_one g : content [g] = seg_rows g.
  Proof. unfold content. cbn. apply app_nil_r. Qed.

  Lemma append_data_ok u : forall f before g off count, Forall gok (before ++ [g]) -> Forall sized (before ++ [g]) ->
    count + (if g_count g <? max_tuples size then 0 else 1) < f ->
    exists c', append_data size f (before ++ [g]) u off count = Ok c' /\ c' <> [] /\ Forall gok c' /\ Forall sized c' /\
      content c' = content (before ++ [g]) ++ map (vrow u) (seq off count).
  Proof.
    induction f as [|f IH]; intros before g off count G S Hf; [lia|].
    cbn [append_data]. rewrite rev_app_distr. cbn [rev app].
    apply Forall_app in G. destruct G as [Gb Gg]. apply Forall_app in S. destruct S as [Sb Sg].
    inversion Gg as [|? ? Hg _]. inversion Sg as [|? ? Hs _]. subst.
    destruct (append_ok g u off count Hg Hs) as (g' & -> & G' & S' & R). cbn [rbind].
    set (n := Nat.min count (max_tuples size - g_count g)) in *.
    cbn [rev app]. rewrite !rev_involutive.
    assert (E1 : content (before ++ [g']) = content (before ++ [g]) ++ map (vrow u) (seq off n)).
    { rewrite !content_app, !content_one, R, app_assoc. reflexivity. }
    assert (Gn : Forall gok (before ++ [g'])) by (apply Forall_app; split; [exact Gb|constructor; [exact G'|constructor]]).
    assert (Sn : Forall sized (before ++ [g'])) by (apply Forall_app; split; [exact Sb|constructor; [exact S'|constructor]]).
    destruct (Nat.eqb_spec n count) as [En|En].
    - eexists. split; [reflexivity|]. split; [destruct before; discriminate|]. split; [exact Gn|]. split; [exact Sn|]. rewrite E1, En. reflexivity.
    - assert (P : 0 < max_tuples size) by (unfold max_tuples; lia).
      assert (Zc : g_count (new_seg size) = 0) by reflexivity.
      destruct (IH (before ++ [g']) (new_seg size) (off + n) (count - n)) as (c' & E & Hne & G2 & S2 & R2).
      + apply Forall_app. split; [exact Gn|]. constructor; [apply new_seg_gok|constructor].
      + apply Forall_app. split; [exact Sn|]. constructor; [|constructor]. unfold sized, new_seg. cbn [g_words g_count]. rewrite repeat_length. lia.
      + rewrite Zc. replace (0 <? max_tuples size) with true by lia. destruct (Nat.ltb_spec (g_count g) (max_tuples size)); lia.
      + exists c'. split; [exact E|]. split; [exact Hne|]. split; [exact G2|]. split; [exact S2|].
        rewrite R2, content_app, content_one. change (seg_rows (new_seg size)) with (@nil bool). rewrite app_nil_r, E1, <- app_assoc, <- map_app, <- seq_app.
        replace (n + (count - n)) with count by lia. reflexivity.
  Qed.

  Lemma rows_vrow u n : rows_of (u, n) = map (vrow u) (seq 0 n).
  Proof. reflexivity. Qed.

  Lemma append_chunk_ok c u n : Forall gok c -> Forall sized c ->
    exists c', append_chunk size c u n = Ok c' /\ Forall gok c' /\ Forall sized c' /\ content c' = content c ++ rows_of (u, n).
  Proof.
    intros G S. unfold append_chunk. rewrite rows_vrow. destruct c as [|g0 c0] eqn:Ec.
    - destruct (append_data_ok u (Datatypes.S (Datatypes.S n)) [] (new_seg size) 0 n) as (c' & E & _ & G' & S' & R).
      + constructor; [apply new_seg_gok|constructor].
      + constructor; [|constructor]. unfold sized, new_seg. cbn [g_words g_count]. rewrite repeat_length. lia.
      + destruct (_ <? _); lia.
      + exists c'. split; [exact E|]. split; [exact G'|]. split; [exact S'|]. exact R.
    - rewrite <- Ec in *. assert (Hne : c <> []) by (subst; discriminate). destruct (exists_last Hne) as (before & g & Eq). rewrite Eq in *.
      destruct (append_data_ok u (Datatypes.S (Datatypes.S n)) before g 0 n G S ltac:(destruct (_ <? _); lia)) as (c' & E & _ & G' & S' & R).
      exists c'. auto.
  Qed.
  Lemma append_chunks_ok l : forall c, Forall gok c -> Forall sized c ->
    exists c', append_chunks size c l = Ok c' /\ Forall gok c' /\ Forall sized c' /\ content c' = content c ++ all_rows l.
  Proof.
    induction l as [|[u n] l IH]; intros c G S; cbn [append_chunks].
    - exists c. split; [reflexivity|]. split; [exact G|]. split; [exact S|]. unfold all_rows. cbn. rewrite app_nil_r. reflexivity.
    - destruct (append_chunk_ok c u n G S) as (c1 & -> & G1 & S1 & R1). cbn [rbind]. destruct (IH c1 G1 S1) as (c' & E & G' & S' & R').
      exists c'. split; [exact E|]. split; [exact G'|]. split; [exact S'|]. rewrite R', R1, <- app_assoc. reflexivity.
  Qed.

  (** ** The theorems *)
  Lemma read_back l : exists c, append_chunks size [] l = Ok c /\
    forall (flat : bool) row n m, n <= r_count m -> row + n <= length (all_rows l) -> 0 < n -> rmask_ok m -> clean m ->
    let '(c', i) := seek c row in
    exists m', (if flat then column_scan_flat c' i n m else column_scan c' i n m) = Ok m' /\ r_count m' = r_count m /\
      (forall j, j < n -> rvalid m' j = nth (row + j) (all_rows l) true) /\
      (forall j, j < r_count m -> rvalid m' j = false -> nth (row + j) (all_rows l) true = false).
  Proof.
    destruct (append_chunks_ok l [] ltac:(constructor) ltac:(constructor)) as (c & E & G & _ & R). cbn [content map concat app] in R.
    change (content [] ++ all_rows l) with (all_rows l) in R.
    exists c. split; [exact E|]. intros flat row n m Hc Hl Hn Mok Cl. rewrite <- R in *.
    destruct (seek_ok c G row ltac:(lia)) as (g & r & i & -> & F & Hi & Hlen & Hnth).
    destruct (column_scan_ok flat (g :: r) i n m F Mok Cl Hc ltac:(lia) ltac:(cbn; lia)) as (m' & X & _ & Hc' & A1 & A2).
    exists m'. split; [exact X|]. split; [exact Hc'|]. split.
    - intros j Hj. rewrite A1, Hnth by exact Hj. reflexivity.
    - intros j Hj V. rewrite <- Hnth. apply A2; assumption.
  Qed.
  Lemma fetch_back l : exists c, append_chunks size [] l = Ok c /\
    forall row m idx, row < length (all_rows l) -> idx < r_count m -> rmask_ok m ->
    exists m', column_fetch_row c row m idx = Ok m' /\ r_count m' = r_count m /\
      forall j, j < r_count m -> rvalid m' j = rvalid m j && (negb (j =? idx) || nth row (all_rows l) true).
  Proof.
    destruct (append_chunks_ok l [] ltac:(constructor) ltac:(constructor)) as (c & E & G & _ & R).
    change (content [] ++ all_rows l) with (all_rows l) in R.
    exists c. split; [exact E|]. intros row m idx Hr Hi Mok. rewrite <- R in *. unfold column_fetch_row.
    destruct (seek_ok c G row ltac:(lia)) as (g & r & i & -> & F & Hg & _ & Hnth).
    pose proof (rok_of m Mok) as Hm. inversion F as [|? ? (Fw & Lw & _) _]. subst.
    destruct (fetch_row_ok g i m idx Hm Hi ltac:(lia)) as (m' & X & Hm' & Hc' & B). exists m'. split; [exact X|]. split; [exact Hc'|].
    intros j Hj. rewrite !rvalid_tb by (auto; lia). rewrite B. specialize (Hnth 0). rewrite !Nat.add_0_r in Hnth. rewrite <- Hnth, content_in by exact Hg. reflexivity.
  Qed.
End Size.
