(** The invariant of a segment of strings, kept by append, and what reads give under it. *)
From Verif Require Import Bytes Outcome StrSegModel StrSegSpec StrSegProofs.
From Coq Require Import ZifyBool ZifyNat ZifyN.

Notation row := (option (list byte)) (only parsing).

(** The bytes in the dictionary for a row. *)
Definition entry (lim : nat) (v : row) (e : list byte) : Prop :=
  match v with None => e = [] | Some s => if lim <=? length s then length e = 8 else e = s end.
(** The last string is long. *)
Definition step_neg (lim : nat) (b : bool) (v : row) : bool :=
  match v with None => b | Some s => lim <=? length s end.
Definition neg (lim : nat) (vs : list row) : bool := fold_left (step_neg lim) vs false.
Definition total (es : list (list byte)) : nat := length (concat es).
Definition offset (lim : nat) (vs : list row) (es : list (list byte)) (n : nat) : Z :=
  if neg lim (firstn n vs) then - Z.of_nat (total (firstn n es)) else Z.of_nat (total (firstn n es)).

Record minv (bs : nat) (m : list byte) (vs : list row) (es : list (list byte)) : Prop := {
  i_bs : (N.of_nat bs < 2 ^ 31)%N;
  i_es : Forall2 (entry (limit bs)) vs es;
  i_len : length m = bs;
  i_size : rd32 m 0 = Ok (N.of_nat (total es));
  i_end : rd32 m 4 = Ok (N.of_nat bs);
  i_fit : 20 + 4 * length vs + total es <= bs;
  i_dict : rd m (bs - total es) (total es) = Ok (concat (rev es));
  i_off : forall i, i < length vs -> rd32 m (20 + 4 * i) = Ok (of_int (offset (limit bs) vs es (S i))) }.

Lemma total_app a b : total (a ++ b) = total a + total b.
Proof. unfold total. rewrite concat_app, app_length. reflexivity. Qed.
Lemma total_one a : total [a] = length a.
Proof. unfold total. cbn. rewrite app_nil_r. reflexivity. Qed.
Lemma total_rev a : length (concat (rev a)) = total a.
Proof.
  induction a as [| x a IH]; [reflexivity |]. cbn [rev]. rewrite concat_app, app_length, IH. cbn [concat]. rewrite app_nil_r.
  change (x :: a) with ([x] ++ a). rewrite total_app, total_one. lia.
Qed.
Lemma total_firstn n es : total (firstn n es) <= total es.
Proof. pose proof (f_equal total (firstn_skipn n es)) as H. rewrite total_app in H. lia. Qed.
Lemma neg_snoc lim vs v : neg lim (vs ++ [v]) = step_neg lim (neg lim vs) v.
Proof. unfold neg. rewrite fold_left_app. reflexivity. Qed.
Lemma offset_app lim vs es v e n : length vs = length es -> n <= length vs -> offset lim (vs ++ [v]) (es ++ [e]) n = offset lim vs es n.
Proof.
  intros L H. unfold offset. rewrite !firstn_app. replace (n - length vs) with 0 by lia. replace (n - length es) with 0 by lia.
  cbn [firstn]. rewrite !app_nil_r. reflexivity.
Qed.
Lemma offset_all lim vs es : length vs = length es ->
  offset lim vs es (length vs) = if neg lim vs then (- Z.of_nat (total es))%Z else Z.of_nat (total es).
Proof. intros L. unfold offset. rewrite firstn_all, L, firstn_all. reflexivity. Qed.
Lemma F2_length {A B} (P : A -> B -> Prop) a b : Forall2 P a b -> length a = length b.
Proof. induction 1; cbn; lia. Qed.
Lemma abs_offset lim vs es n : Z.abs (offset lim vs es n) = Z.of_nat (total (firstn n es)).
Proof. unfold offset. destruct (neg _ _); lia. Qed.
Lemma minv_as bs m vs es n : minv bs m vs es -> as_int (of_int (offset (limit bs) vs es n)) = offset (limit bs) vs es n.
Proof.
  intros V. apply as_of_int. pose proof (abs_offset (limit bs) vs es n). pose proof (total_firstn n es).
  pose proof (i_bs _ _ _ _ V). pose proof (i_fit _ _ _ _ V). lia.
Qed.

Lemma minv_fresh bs junk : length junk = bs -> 20 <= bs -> (N.of_nat bs < 2 ^ 31)%N ->
  exists g, fresh junk = Ok g /\ g_count g = 0 /\ minv bs (g_mem g) [] [].
Proof.
  intros L B B2. unfold fresh.
  destruct (wr32_Ok junk 0 0%N) as [m1 E1]; [lia |]. rewrite E1. cbn [rbind].
  pose proof (wr32_length _ _ _ _ E1) as L1.
  destruct (wr32_Ok m1 4 (N.of_nat (length junk))) as [m2 E2]; [lia |]. rewrite E2. cbn [rbind].
  pose proof (wr32_length _ _ _ _ E2) as L2.
  eexists. split; [reflexivity |]. split; [reflexivity |]. cbn [g_mem]. constructor; auto.
  - lia.
  - rewrite (rd32_wr32_other _ _ _ _ 0 E2) by lia. eapply rd32_wr32_same; [| exact E1]. reflexivity.
  - rewrite <- L at 1. eapply rd32_wr32_same; [| exact E2]. lia.
  - apply rd_Ok. unfold total. cbn. split; [lia | reflexivity].
  - cbn. lia.
Qed.

(** A word of a row is written where no other data is. *)
Lemma minv_word bs m vs es v m' o :
  minv bs m vs es -> 20 + 4 * S (length vs) + total es <= bs -> entry (limit bs) v [] ->
  o = offset (limit bs) (vs ++ [v]) (es ++ [ [] ]) (S (length vs)) ->
  wr32 m (20 + 4 * length vs) (of_int o) = Ok m' -> minv bs m' (vs ++ [v]) (es ++ [ [] ]).
Proof.
  intros V F He -> W. pose proof (F2_length _ _ _ (i_es _ _ _ _ V)) as L.
  assert (T : total (es ++ [ [] ]) = total es) by (rewrite total_app, total_one; cbn; lia).
  constructor; rewrite ?T, ?app_length.
  - apply V.
  - apply Forall2_app; [apply V | auto].
  - rewrite (wr32_length _ _ _ _ W). apply V.
  - rewrite (rd32_wr32_other _ _ _ _ 0 W) by lia. apply V.
  - rewrite (rd32_wr32_other _ _ _ _ 4 W) by lia. apply V.
  - cbn [length]. lia.
  - rewrite (rd_wr32_other _ _ _ _ _ _ W) by lia. rewrite rev_app_distr. cbn [rev app concat]. apply V.
  - cbn [length]. intros i Hi. destruct (Nat.eq_dec i (length vs)) as [-> | Ne].
    + eapply rd32_wr32_same; [apply of_int_lt | exact W].
    + rewrite (rd32_wr32_other _ _ _ _ _ W) by lia. rewrite offset_app by lia. apply V. lia.
Qed.

Lemma minv_push bs m vs es v e :
  minv bs m vs es -> 20 + 4 * S (length vs) + total es + length e <= bs -> entry (limit bs) v e ->
  exists m1, push m e = Ok (m1, N.of_nat (total es + length e)) /\
  forall o, o = offset (limit bs) (vs ++ [v]) (es ++ [e]) (S (length vs)) ->
  exists m2, wr32 m1 (20 + 4 * length vs) (of_int o) = Ok m2 /\ minv bs m2 (vs ++ [v]) (es ++ [e]).
Proof.
  intros V F He. pose proof (F2_length _ _ _ (i_es _ _ _ _ V)) as L. pose proof (i_bs _ _ _ _ V) as HB.
  pose proof (i_len _ _ _ _ V) as HL.
  unfold push. rewrite (i_size _ _ _ _ V), (i_end _ _ _ _ V). cbn [rbind].
  replace (N.of_nat (total es) + N.of_nat (length e))%N with (N.of_nat (total es + length e)) by lia.
  destruct (wr32_Ok m 0 (N.of_nat (total es + length e))) as [m1 W1]; [lia |]. rewrite W1. cbn [rbind].
  pose proof (wr32_length _ _ _ _ W1) as L1.
  destruct (N.leb_spec (N.of_nat (total es + length e)) (N.of_nat bs)) as [_ | ?]; [| lia].
  replace (N.to_nat (N.of_nat bs - N.of_nat (total es + length e))) with (bs - (total es + length e)) by lia.
  destruct (wr_Ok m1 (bs - (total es + length e)) e) as [m2 W2]; [lia |]. rewrite W2. cbn [rbind].
  pose proof (wr_length _ _ _ _ W2) as L2.
  exists m2. split; [reflexivity |]. intros o ->.
  destruct (wr32_Ok m2 (20 + 4 * length vs) (of_int (offset (limit bs) (vs ++ [v]) (es ++ [e]) (S (length vs))))) as [m3 W3]; [lia |].
  exists m3. split; [exact W3 |]. pose proof (wr32_length _ _ _ _ W3) as L3.
  assert (T : total (es ++ [e]) = total es + length e) by (rewrite total_app, total_one; lia).
  constructor; rewrite ?T, ?app_length.
  - exact HB.
  - apply Forall2_app; [apply V | auto].
  - lia.
  - rewrite (rd32_wr32_other _ _ _ _ 0 W3) by lia. rewrite (rd32_wr_other _ _ _ _ 0 W2) by lia.
    eapply rd32_wr32_same; [| exact W1]. lia.
  - rewrite (rd32_wr32_other _ _ _ _ 4 W3) by lia. rewrite (rd32_wr_other _ _ _ _ 4 W2) by lia.
    rewrite (rd32_wr32_other _ _ _ _ 4 W1) by lia. apply V.
  - cbn [length]. lia.
  - rewrite (rd_wr32_other _ _ _ _ _ _ W3) by lia. rewrite rev_app_distr. cbn [rev app concat].
    rewrite (Nat.add_comm (total es)) at 2. apply rd_app.
    + apply (rd_wr_same _ _ _ _ W2).
    + replace (bs - (total es + length e) + length e) with (bs - total es) by lia.
      rewrite (rd_wr_other _ _ _ _ _ _ W2) by lia. rewrite (rd_wr32_other _ _ _ _ _ _ W1) by lia. apply V.
  - cbn [length]. intros i Hi. destruct (Nat.eq_dec i (length vs)) as [-> | Ne].
    + eapply rd32_wr32_same; [apply of_int_lt | exact W3].
    + rewrite (rd32_wr32_other _ _ _ _ _ W3) by lia. rewrite (rd32_wr_other _ _ _ _ _ W2) by lia.
      rewrite (rd32_wr32_other _ _ _ _ _ W1) by lia. rewrite offset_app by lia. apply V. lia.
Qed.

(** One row: either it does not fit, or it is added. *)
Definition cost (lim : nat) (v : row) : nat :=
  match v with None => 4 | Some s => if lim <=? length s then 12 else 4 + length s end.
Lemma append_row_spec bs g vs es rem v :
  minv bs (g_mem g) vs es -> 20 + 4 * length vs + total es + rem = bs ->
  (rem < cost (limit bs) v /\ append_row bs g (length vs) rem v = Ok None) \/
  (cost (limit bs) v <= rem /\ exists g' e, append_row bs g (length vs) rem v = Ok (Some (g', rem - cost (limit bs) v)) /\
     g_count g' = g_count g /\ minv bs (g_mem g') (vs ++ [v]) (es ++ [e]) /\ cost (limit bs) v = 4 + length e).
Proof.
  intros V R. pose proof (F2_length _ _ _ (i_es _ _ _ _ V)) as L. pose proof (i_bs _ _ _ _ V) as HB.
  pose proof (i_len _ _ _ _ V) as HL.
  unfold append_row, HEADER, MARKER. destruct (Nat.ltb_spec rem 4) as [H4 | H4].
  { left. split; [| reflexivity]. destruct v as [s |]; cbn [cost]; [destruct (_ <=? _) |]; lia. }
  destruct v as [s |]; cbn [cost].
  2: { right. split; [lia |].
    assert (exists o, (if 0 <? length vs then rd32 (g_mem g) (20 + 4 * (length vs - 1)) else Ok 0%N) = Ok (of_int o) /\
              o = offset (limit bs) (vs ++ [None]) (es ++ [ [] ]) (S (length vs))) as (o & Ho & Eo).
    { eexists. split; [| reflexivity].
      assert (offset (limit bs) (vs ++ [None]) (es ++ [ [] ]) (S (length vs)) = offset (limit bs) vs es (length vs)) as ->.
      { replace (S (length vs)) with (length (vs ++ [None])) by (rewrite app_length; cbn; lia).
        rewrite !offset_all by (rewrite ?app_length; cbn; lia). rewrite neg_snoc, total_app, total_one. cbn. rewrite Nat.add_0_r. reflexivity. }
      destruct (Nat.ltb_spec 0 (length vs)) as [H | H].
      - rewrite (i_off _ _ _ _ V) by lia. replace (S (length vs - 1)) with (length vs) by lia. reflexivity.
      - destruct vs; [| cbn in H; lia]. destruct es; [| discriminate]. reflexivity. }
    rewrite Ho. cbn [rbind]. destruct (wr32_Ok (g_mem g) (20 + 4 * length vs) (of_int o)) as [m W]; [lia |].
    rewrite W. cbn [rbind]. exists (with_mem g m), []. split; [reflexivity |]. split; [reflexivity |]. split; [| reflexivity].
    cbn [g_mem with_mem]. eapply minv_word; eauto; [lia | reflexivity]. }
  destruct (Nat.leb_spec (limit bs) (length s)) as [Big | Small].
  - destruct (Nat.ltb_spec (rem - 4) 8) as [H8 | H8]; [left; split; [lia | reflexivity] |]. right. split; [lia |].
    destruct (write_over bs s g) as [g1 [block off] ] eqn:W.
    assert (g_mem g1 = g_mem g /\ g_count g1 = g_count g) as [M C].
    { unfold write_over in W. destruct (g_over g) as [o |]; [destruct (_ <=? _)%N |]; injection W as <- <- <-; auto. }
    rewrite M. set (e := le32 block ++ le32 off).
    assert (Le : length e = 8) by (unfold e; rewrite app_length, !le32_length; reflexivity).
    assert (He : entry (limit bs) (Some s) e). { unfold entry. destruct (Nat.leb_spec (limit bs) (length s)); [exact Le | lia]. }
    destruct (minv_push bs (g_mem g) vs es (Some s) e V ltac:(lia) He) as (m1 & P & K). rewrite P. cbn [rbind].
    destruct (K (- Z.of_N (N.of_nat (total es + length e)))%Z) as (m2 & W2 & V2).
    { replace (S (length vs)) with (length (vs ++ [Some s])) by (rewrite app_length; cbn; lia).
      rewrite offset_all by (rewrite !app_length; cbn; lia). rewrite neg_snoc, total_app, total_one. cbn [step_neg].
      destruct (Nat.leb_spec (limit bs) (length s)); lia. }
    rewrite W2. cbn [rbind]. exists (with_mem g1 m2), e. split; [do 3 f_equal; lia |]. split; [exact C |]. split; [exact V2 | lia].
  - destruct (Nat.ltb_spec (rem - 4) (length s)) as [H8 | H8]; [left; split; [lia | reflexivity] |]. right. split; [lia |].
    assert (He : entry (limit bs) (Some s) s). { unfold entry. destruct (Nat.leb_spec (limit bs) (length s)); [lia | reflexivity]. }
    destruct (minv_push bs (g_mem g) vs es (Some s) s V ltac:(lia) He) as (m1 & P & K). rewrite P. cbn [rbind].
    destruct (K (Z.of_nat (total es + length s))%Z) as (m2 & W2 & V2).
    { replace (S (length vs)) with (length (vs ++ [Some s])) by (rewrite app_length; cbn; lia).
      rewrite offset_all by (rewrite !app_length; cbn; lia). rewrite neg_snoc, total_app, total_one. cbn [step_neg].
      destruct (Nat.leb_spec (limit bs) (length s)); lia. }
    rewrite of_int_nat in W2 by lia. rewrite W2. cbn [rbind]. exists (with_mem g m2), s.
    split; [do 3 f_equal; lia |]. split; [reflexivity |]. split; [exact V2 | lia].
Qed.

Lemma append_rows_spec bs new : forall g vs es rem,
  minv bs (g_mem g) vs es -> 20 + 4 * length vs + total es + rem = bs ->
  exists g' k es', append_rows bs g (length vs) rem new = Ok (g', length vs + k) /\ k <= length new /\
    minv bs (g_mem g') (vs ++ firstn k new) es' /\
    (forall v r, new = v :: r -> cost (limit bs) v <= rem -> 0 < k).
Proof.
  induction new as [| v r IH]; intros g vs es rem V R; cbn [append_rows].
  - exists g, 0, es. rewrite Nat.add_0_r. cbn [firstn]. rewrite app_nil_r. repeat split; auto; try apply V. discriminate.
  - destruct (append_row_spec bs g vs es rem v V R) as [ [C E] | (C & g1 & e & E & _ & V1 & Ce) ]; rewrite E; cbn [rbind].
    + exists g, 0, es. rewrite Nat.add_0_r. cbn [firstn]. rewrite app_nil_r. split; [reflexivity |]. split; [lia |]. split; [exact V |].
      intros v' r' [= -> ->] C'. lia.
    + destruct (IH g1 (vs ++ [v]) (es ++ [e]) (rem - cost (limit bs) v) V1) as (g' & k & es' & E' & K & V' & _).
      { rewrite app_length, total_app, total_one. cbn [length]. lia. }
      rewrite app_length in E'. cbn [length] in E'. replace (length vs + 1) with (S (length vs)) in E' by lia.
      exists g', (S k), es'. rewrite E'. split; [do 2 f_equal; lia |]. split; [cbn; lia |]. split; [| intros; lia].
      cbn [firstn]. rewrite <- app_assoc in V'. exact V'.
Qed.

Definition sinv (bs : nat) (g : seg) (vs : list row) : Prop := g_count g = length vs /\ exists es, minv bs (g_mem g) vs es.
Lemma append_spec bs g vs new : sinv bs g vs ->
  exists g' k, append bs g new = Ok (g', k) /\ k <= length new /\ sinv bs g' (vs ++ firstn k new) /\
    (vs = [] -> 32 <= bs -> new <> [] -> 0 < k).
Proof.
  intros [C [es V] ]. unfold append. rewrite (i_size _ _ _ _ V). cbn [rbind]. rewrite C. pose proof (i_fit _ _ _ _ V) as F.
  unfold HEADER. destruct (N.leb_spec (N.of_nat (total es) + 4 * N.of_nat (length vs) + N.of_nat 20) (N.of_nat bs)) as [_ | ?]; [| lia].
  destruct (append_rows_spec bs new g vs es (N.to_nat (N.of_nat bs - (N.of_nat (total es) + 4 * N.of_nat (length vs) + N.of_nat 20))) V ltac:(lia))
    as (g' & k & es' & E & K & V' & P).
  rewrite E. cbn [rbind]. exists (with_count g' (length vs + k)), k. split; [do 2 f_equal; lia |]. split; [exact K |]. split.
  - split; [cbn [g_count with_count]; rewrite app_length, firstn_length; lia | exists es'; exact V'].
  - intros -> B Ne. destruct new as [| v r]; [congruence |]. apply (P v r eq_refl).
    pose proof (F2_length _ _ _ (i_es _ _ _ _ V)) as Le. destruct es; [| discriminate].
    change (total []) with 0. cbn [length].
    assert (limit bs <= bs / 4 / 8 * 8) by (unfold limit; lia).
    destruct v as [s |]; cbn [cost]; [destruct (Nat.leb_spec (limit bs) (length s)) |]; lia.
Qed.

(** Reads. *)
Lemma firstn_S {A} (l : list A) i x : nth_error l i = Some x -> firstn (S i) l = firstn i l ++ [x].
Proof. revert i. induction l as [| h l IH]; intros [| i] H; try discriminate; cbn in *; [congruence | rewrite (IH i H); reflexivity]. Qed.
Lemma F2_nth {A B} (P : A -> B -> Prop) a b i x : Forall2 P a b -> nth_error a i = Some x -> exists y, nth_error b i = Some y /\ P x y.
Proof. intros H. revert i. induction H; intros [| i] E; try discriminate; cbn in *; [injection E as ->; eauto | eauto]. Qed.
Lemma rev_split (es : list (list byte)) i e : nth_error es i = Some e ->
  concat (rev es) = concat (rev (skipn (S i) es)) ++ e ++ concat (rev (firstn i es)).
Proof.
  intros H. rewrite <- (firstn_skipn (S i) es) at 1. pose proof (firstn_S es i e H) as Q. rewrite Q.
  rewrite !rev_app_distr, !concat_app. cbn [rev app concat]. rewrite app_nil_r. reflexivity.
Qed.
Lemma length_of_offsets bs m vs es i e :
  minv bs m vs es -> nth_error es i = Some e ->
  length_of (offset (limit bs) vs es (S i)) (offset (limit bs) vs es i) = N.of_nat (length e).
Proof.
  intros V H. unfold length_of. rewrite !abs_offset, (firstn_S es i e H), total_app, total_one.
  replace (Z.of_nat (total (firstn i es) + length e) - Z.of_nat (total (firstn i es)))%Z with (Z.of_nat (length e)) by lia.
  apply of_int_nat. pose proof (total_firstn (S i) es) as T. rewrite (firstn_S es i e H), total_app, total_one in T.
  pose proof (i_bs _ _ _ _ V). pose proof (i_fit _ _ _ _ V). lia.
Qed.
Lemma offset_pos bs vs es i v : nth_error vs i = Some v -> neg (limit bs) (firstn (S i) vs) = false ->
  offset (limit bs) vs es (S i) = Z.of_nat (total (firstn (S i) es)).
Proof. intros _ H. unfold offset. rewrite H. reflexivity. Qed.

Lemma fetch_from_good bs m vs es i v : minv bs m vs es -> nth_error vs i = Some v -> neg (limit bs) (firstn (S i) vs) = false ->
  fetch_from m (offset (limit bs) vs es (S i)) (length_of (offset (limit bs) vs es (S i)) (offset (limit bs) vs es i)) = Ok (value v).
Proof.
  intros V H Ng. destruct (F2_nth _ _ _ _ _ (i_es _ _ _ _ V) H) as (e & He & Ee).
  rewrite (length_of_offsets bs m vs es i e V He). rewrite (offset_pos _ _ _ _ _ H Ng).
  assert (value v = e) as ->.
  { rewrite (firstn_S vs i v H), neg_snoc in Ng. destruct v as [s |]; unfold entry, value, step_neg in *; [rewrite Ng in Ee |]; auto. }
  unfold fetch_from. destruct (Z.ltb_spec (Z.of_nat (total (firstn (S i) es))) 0); [lia |].
  unfold fetch_at. pose proof (total_firstn (S i) es) as T. rewrite (firstn_S es i e He) in *. rewrite total_app, total_one in *.
  destruct (Z.eqb_spec (Z.of_nat (total (firstn i es) + length e)) 0) as [Z0 | _].
  { destruct e; [reflexivity | cbn [length] in Z0; lia]. }
  rewrite (i_end _ _ _ _ V). cbn [rbind]. pose proof (i_fit _ _ _ _ V) as F.
  destruct (Z.ltb_spec (Z.of_N (N.of_nat bs) - Z.of_nat (total (firstn i es) + length e)) 0); [lia |].
  eapply rd_sub; [apply (i_dict _ _ _ _ V) | apply (rev_split es i e He) | | lia].
  rewrite total_rev.
  assert (total es = total (firstn i es) + length e + total (skipn (S i) es)).
  { pose proof (f_equal total (firstn_skipn (S i) es)) as Q. rewrite (firstn_S es i e He), !total_app, total_one in Q. lia. }
  lia.
Qed.

Lemma word_at bs m vs es i : minv bs m vs es -> i < length vs -> rd32 m (HEADER + 4 * i) = Ok (of_int (offset (limit bs) vs es (S i))).
Proof. intros V H. apply (i_off _ _ _ _ V). exact H. Qed.
Lemma prev_word bs m vs es i : minv bs m vs es -> i <= length vs ->
  (if 0 <? i then rd32 m (HEADER + 4 * (i - 1)) else Ok 0%N) = Ok (of_int (offset (limit bs) vs es i)).
Proof.
  intros V H. destruct (Nat.ltb_spec 0 i).
  - rewrite (word_at bs m vs es) by (auto; lia). replace (S (i - 1)) with i by lia. reflexivity.
  - assert (i = 0) as -> by lia. reflexivity.
Qed.
Lemma fetch_row_eq bs g vs es i : minv bs (g_mem g) vs es -> i < length vs ->
  fetch_row g i = fetch_from (g_mem g) (offset (limit bs) vs es (S i)) (length_of (offset (limit bs) vs es (S i)) (offset (limit bs) vs es i)).
Proof.
  intros V H. unfold fetch_row. rewrite (word_at bs _ vs es) by auto. cbn [rbind].
  replace (if i =? 0 then Ok 0%N else rd32 (g_mem g) (HEADER + 4 * (i - 1)))
    with (if 0 <? i then rd32 (g_mem g) (HEADER + 4 * (i - 1)) else Ok 0%N) by (destruct i; reflexivity).
  rewrite (prev_word bs _ vs es) by (auto; lia). cbn [rbind]. rewrite !(minv_as _ _ _ _ _ V). reflexivity.
Qed.

(** Row [i] of the segment reads well. *)
Definition good (bs : nat) (vs : list row) (i : nat) : Prop := neg (limit bs) (firstn (S i) vs) = false.
Lemma fetch_row_good bs g vs i v : sinv bs g vs -> nth_error vs i = Some v -> good bs vs i -> fetch_row g i = Ok (value v).
Proof.
  intros [_ [es V] ] H G. rewrite (fetch_row_eq bs g vs es) by (auto; apply nth_error_Some; congruence).
  eapply fetch_from_good; eauto.
Qed.
Lemma skipn_nth {A} (l : list A) i x : nth_error l i = Some x -> skipn i l = x :: skipn (S i) l.
Proof. revert i. induction l as [| h l IH]; intros [| i] H; try discriminate; cbn in *; [congruence | apply (IH i H)]. Qed.
Lemma scan_loop_good bs m vs es n : forall i, minv bs m vs es -> i + n <= length vs -> (forall j, i <= j < i + n -> good bs vs j) ->
  scan_loop m i n (offset (limit bs) vs es i) = Ok (map value (firstn n (skipn i vs))).
Proof.
  induction n as [| n IH]; intros i V H G; [reflexivity |]. cbn [scan_loop].
  destruct (nth_error vs i) as [v |] eqn:E; [| apply nth_error_None in E; lia].
  rewrite (word_at bs m vs es) by (auto; lia). cbn [rbind]. rewrite (minv_as _ _ _ _ _ V).
  rewrite (fetch_from_good bs m vs es i v V E) by (apply G; lia). cbn [rbind].
  rewrite IH by (auto; try lia; intros; apply G; lia). cbn [rbind]. rewrite (skipn_nth vs i v E). reflexivity.
Qed.
Lemma scan_good bs g vs i n : sinv bs g vs -> i + n <= length vs -> (forall j, i <= j < i + n -> good bs vs j) ->
  scan g i n = Ok (map value (firstn n (skipn i vs))).
Proof.
  intros [_ [es V] ] H G. unfold scan. rewrite (prev_word bs _ vs es) by (auto; lia). cbn [rbind].
  rewrite (minv_as _ _ _ _ _ V). apply scan_loop_good; auto.
Qed.
Lemma fetches_good bs g vs n : forall i, sinv bs g vs -> i + n <= length vs -> (forall j, i <= j < i + n -> good bs vs j) ->
  fetches g i n = Ok tt.
Proof.
  induction n as [| n IH]; intros i V H G; [reflexivity |]. cbn [fetches].
  destruct (nth_error vs i) as [v |] eqn:E; [| apply nth_error_None in E; lia].
  rewrite (fetch_row_good bs g vs i v V E) by (apply G; lia). cbn [rbind]. apply IH; auto; [lia | intros; apply G; lia].
Qed.

(** A long string never comes back: what is read has 0 or 8 bytes. *)
Lemma fetch_at_length m off len r : fetch_at m off len = Ok r -> r = [] \/ length r = N.to_nat len.
Proof.
  unfold fetch_at. destruct (_ =? _)%Z; [intros [= <-]; auto |]. destruct (rd32 m 4); cbn [rbind]; [| discriminate].
  destruct (_ <? _)%Z; [discriminate |]. intros H. right. eapply rd_length; eauto.
Qed.
Lemma fetch_from_length m off len r : fetch_from m off len = Ok r -> r = [] \/ length r = N.to_nat len.
Proof.
  unfold fetch_from. destruct (_ <? _)%Z; [| apply fetch_at_length]. destruct (rd32 m 4); cbn [rbind]; [| discriminate].
  destruct (_ <? _)%Z; [discriminate |]. destruct (rd m _ 8); cbn [rbind]; [| discriminate].
  destruct (rd32 m _); cbn [rbind]; [| discriminate]. apply fetch_at_length.
Qed.
Lemma fetch_row_big bs g vs i s r : sinv bs g vs -> nth_error vs i = Some (Some s) -> limit bs <= length s ->
  fetch_row g i = Ok r -> length r <= 8.
Proof.
  intros [_ [es V] ] H B. rewrite (fetch_row_eq bs g vs es) by (auto; apply nth_error_Some; congruence).
  destruct (F2_nth _ _ _ _ _ (i_es _ _ _ _ V) H) as (e & He & Ee).
  rewrite (length_of_offsets bs _ vs es i e V He). unfold entry in Ee. destruct (Nat.leb_spec (limit bs) (length s)); [| lia].
  intros F. apply fetch_from_length in F as [-> | F]; cbn [length]; lia.
Qed.
