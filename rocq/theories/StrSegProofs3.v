(** Columns of strings: a list of segments, each with its part of the rows. *)
From Verif Require Import Bytes Outcome StrSegModel StrSegSpec StrSegProofs StrSegProofs2.
From Coq Require Import ZifyBool ZifyNat ZifyN.

Definition cinv (bs : nat) (c : column) (rows : list row) : Prop :=
  exists vss, Forall2 (sinv bs) c vss /\ rows = concat vss.

Lemma cinv_snoc bs before g rows vs : cinv bs before rows -> sinv bs g vs -> cinv bs (before ++ [g]) (rows ++ vs).
Proof.
  intros (vss & F & ->) H. exists (vss ++ [vs]). split; [apply Forall2_app; auto |]. rewrite concat_app. cbn. rewrite app_nil_r. reflexivity.
Qed.
Lemma cinv_last bs before g rows : cinv bs (before ++ [g]) rows -> exists r vs, rows = r ++ vs /\ cinv bs before r /\ sinv bs g vs.
Proof.
  intros (vss & F & ->). apply Forall2_app_inv_l in F as (a & b & Fa & Fb & ->). inversion Fb as [| ? y ? ? Hy Hn]; subst. inversion Hn; subst.
  exists (concat a), y. rewrite concat_app. cbn. rewrite app_nil_r. split; [reflexivity |]. split; [exists a; auto | auto].
Qed.

Section C.
  Variable bs : nat.
  Variable junk : nat -> list byte.
  Hypothesis Hj : forall n, length (junk n) = bs.
  Hypothesis Hbs : 32 <= bs.
  Hypothesis Hbs2 : (N.of_nat bs < 2 ^ 31)%N.

  Lemma fresh_ok n : exists g, fresh (junk n) = Ok g /\ sinv bs g [].
  Proof.
    destruct (minv_fresh bs (junk n) (Hj n) ltac:(lia) Hbs2) as (g & E & C & V). exists g. split; [exact E |]. split; [exact C | eauto].
  Qed.

  Lemma append_data_ok fuel : forall before g r vs new,
    cinv bs before r -> sinv bs g vs -> (2 + length new <= fuel \/ vs = [] /\ 1 + length new <= fuel) ->
    exists c', append_data bs junk fuel (before ++ [g]) new = Ok c' /\ c' <> [] /\ cinv bs c' (r ++ vs ++ new).
  Proof.
    induction fuel as [| f IH]; intros before g r vs new B G F; [lia |]. cbn [append_data]. rewrite rev_unit.
    destruct (append_spec bs g vs new G) as (g' & k & E & K & G' & P). rewrite E. cbn [rbind].
    destruct (Nat.eqb_spec k (length new)) as [-> | Ne].
    - rewrite firstn_all in G'. cbn [rev]. rewrite rev_involutive. eexists. split; [reflexivity |]. split.
      + intros H. apply app_eq_nil in H as [_ H]. discriminate.
      + apply cinv_snoc; auto.
    - destruct (fresh_ok (length (before ++ [g]))) as (h & Eh & Sh). rewrite Eh. cbn [rbind rev]. rewrite rev_involutive.
      destruct (IH (before ++ [g']) h (r ++ vs ++ firstn k new) [] (skipn k new)) as (c' & Ec & Nc & Cc).
      + apply cinv_snoc; auto.
      + exact Sh.
      + right. split; [reflexivity |]. rewrite skipn_length. destruct F as [F | [-> F] ]; [lia |].
        assert (0 < k) by (apply P; auto; intros ->; cbn [length] in *; lia). lia.
      + exists c'. split; [exact Ec |]. split; [exact Nc |]. cbn [app] in Cc. rewrite <- !app_assoc, firstn_skipn in Cc. exact Cc.
  Qed.
  Lemma append_chunk_ok c rows new : cinv bs c rows -> exists c', append_chunk bs junk c new = Ok c' /\ cinv bs c' (rows ++ new).
  Proof.
    intros V. unfold append_chunk, initialize_append. destruct c as [| g0 c0].
    - destruct V as (vss & F & ->). inversion F; subst. destruct (fresh_ok 0) as (g & E & G). rewrite E. cbn [rbind].
      destruct (append_data_ok (2 + length new) [] g [] [] new) as (c' & E' & _ & V'); auto.
      + exists []. auto.
      + exists c'. auto.
    - cbn [rbind]. destruct (exists_last (l := g0 :: c0)) as (before & g & E); [discriminate |]. rewrite E in V |- *.
      destruct (cinv_last _ _ _ _ V) as (r & vs & -> & B & G).
      destruct (append_data_ok (2 + length new) before g r vs new) as (c' & E' & _ & V'); auto.
      exists c'. rewrite <- app_assoc. auto.
  Qed.
  Lemma append_chunks_ok chunks : forall c rows, cinv bs c rows ->
    exists c', append_chunks bs junk c chunks = Ok c' /\ cinv bs c' (rows ++ concat chunks).
  Proof.
    induction chunks as [| vs chunks IH]; intros c rows V; cbn [append_chunks].
    - exists c. cbn [concat]. rewrite app_nil_r. auto.
    - destruct (append_chunk_ok c rows vs V) as (c1 & E & V1). rewrite E. cbn [rbind].
      destruct (IH c1 _ V1) as (c' & E' & V'). exists c'. cbn [concat]. rewrite app_assoc. auto.
  Qed.
End C.

(** From the rows of the column to those of a segment. *)
Lemma neg_true lim l : neg lim l = true -> exists j s, nth_error l j = Some (Some s) /\ lim <= length s /\
  forall k, j < k -> k < length l -> nth_error l k = Some None.
Proof.
  induction l as [| v l IH] using rev_ind; [discriminate |]. rewrite neg_snoc. destruct v as [s |]; cbn [step_neg]; intros H.
  - exists (length l), s. rewrite nth_error_app2, Nat.sub_diag by lia. split; [reflexivity |]. split; [lia |].
    rewrite app_length. cbn [length]. intros; lia.
  - destruct (IH H) as (j & s & E & B & K). exists j, s.
    assert (j < length l) by (apply nth_error_Some; congruence).
    rewrite nth_error_app1 by lia. split; [exact E |]. split; [exact B |]. rewrite app_length. cbn [length]. intros k H1 H2.
    destruct (Nat.eq_dec k (length l)) as [-> | Ne]; [rewrite nth_error_app2, Nat.sub_diag by lia; reflexivity |].
    rewrite nth_error_app1 by lia. apply K; lia.
Qed.
Lemma nth_firstn {A} (l : list A) n i : i < n -> nth_error (firstn n l) i = nth_error l i.
Proof. revert n i. induction l as [| h l IH]; intros [| n] [| i] H; try reflexivity; try lia. cbn. apply IH. lia. Qed.
Lemma readable_good bs pre vs post i : i < length vs -> readable (limit bs) (pre ++ vs ++ post) (length pre + i) -> good bs vs i.
Proof.
  intros Hi R. unfold good. destruct (neg (limit bs) (firstn (S i) vs)) eqn:Ng; [exfalso | reflexivity].
  assert (At : forall j, j < length vs -> nth_error (pre ++ vs ++ post) (length pre + j) = nth_error vs j).
  { intros j Hj. rewrite nth_error_app2 by lia. replace (length pre + j - length pre) with j by lia. apply nth_error_app1. exact Hj. }
  unfold readable in R. rewrite At in R by auto.
  destruct (neg_true _ _ Ng) as (j & s & E & B & K).
  assert (j < S i). { assert (j < length (firstn (S i) vs)) by (apply nth_error_Some; congruence). rewrite firstn_length in *. lia. }
  rewrite nth_firstn in E by lia.
  destruct (Nat.eq_dec j i) as [-> | Ne]; [rewrite E in R; lia |].
  assert (N : nth_error vs i = Some None). { rewrite <- (nth_firstn vs (S i) i) by lia. apply K; [lia |]. rewrite firstn_length. lia. }
  rewrite N in R. enough (length s < limit bs) by lia. apply (R (length pre + j)); [lia | rewrite At by lia; exact E |].
  intros k H1 H2. replace k with (length pre + (k - length pre)) by lia. rewrite At by lia.
  rewrite <- (nth_firstn vs (S i)) by lia. apply K; [lia |]. rewrite firstn_length. lia.
Qed.

Lemma column_fetch_ok bs c vss : Forall2 (sinv bs) c vss -> forall pre i v,
  nth_error (concat vss) i = Some v -> readable (limit bs) (pre ++ concat vss) (length pre + i) -> column_fetch c i = Ok (value v).
Proof.
  unfold column_fetch. induction 1 as [| g vs c vss G F IH]; intros pre i v E R; [destruct i; discriminate |].
  cbn [find_seg concat] in *. destruct G as [C X]. rewrite C. destruct (Nat.ltb_spec i (length vs)) as [H | H].
  - rewrite nth_error_app1 in E by lia. eapply fetch_row_good; [split; eauto | exact E |]. eapply readable_good; eauto.
  - rewrite nth_error_app2 in E by lia. apply (IH (pre ++ vs)); [exact E |]. rewrite <- app_assoc, app_length.
    replace (length pre + length vs + (i - length vs)) with (length pre + i) by lia. exact R.
Qed.
Lemma column_scan_ok bs c vss : Forall2 (sinv bs) c vss -> forall pre start n,
  start + n <= length (concat vss) -> (forall i, start <= i < start + n -> readable (limit bs) (pre ++ concat vss) (length pre + i)) ->
  column_scan c start n = Ok (map value (firstn n (skipn start (concat vss)))).
Proof.
  induction 1 as [| g vs c vss G F IH]; intros pre start n L R.
  - cbn [concat column_scan]. rewrite skipn_nil, firstn_nil. reflexivity.
  - cbn [column_scan concat] in *. destruct G as [C X]. rewrite C. rewrite app_length in L. destruct (Nat.leb_spec (length vs) start) as [H | H].
    + rewrite (IH (pre ++ vs)) by (try lia; intros i Hi; specialize (R (i + length vs) ltac:(lia)); rewrite <- app_assoc, app_length;
        replace (length pre + length vs + i) with (length pre + (i + length vs)) by lia; exact R).
      rewrite skipn_app, (skipn_all2 vs) by lia. reflexivity.
    + set (k := Nat.min n (length vs - start)).
      assert (Gd : forall j, start <= j < start + k -> good bs vs j) by (intros j Hj; eapply readable_good; [lia | apply R; lia]).
      rewrite (fetches_good bs g vs k start) by (auto; try (split; eauto); lia). cbn [rbind].
      rewrite (scan_good bs g vs start k) by (auto; try (split; eauto); lia). cbn [rbind].
      rewrite skipn_app. replace (start - length vs) with 0 by lia. cbn [skipn]. rewrite firstn_app, skipn_length, map_app.
      destruct (Nat.eqb_spec (n - k) 0) as [Z | Z]; cbn [rbind].
      * replace (n - (length vs - start)) with 0 by lia. assert (k = n) as Ek by lia. rewrite Ek. reflexivity.
      * assert (k = length vs - start) as Ek by lia.
        rewrite (IH (pre ++ vs)) by (try lia; intros i Hi; specialize (R (i + length vs) ltac:(lia)); rewrite <- app_assoc, app_length;
          replace (length pre + length vs + i) with (length pre + (i + length vs)) by lia; exact R).
        cbn [rbind skipn]. do 2 f_equal; [| f_equal; f_equal; lia].
        f_equal. rewrite !firstn_all2 by (rewrite skipn_length; lia). reflexivity.
Qed.

(** Long strings. *)
Lemma column_fetch_big bs c vss : Forall2 (sinv bs) c vss -> forall i s r,
  nth_error (concat vss) i = Some (Some s) -> limit bs <= length s -> column_fetch c i = Ok r -> length r <= 8.
Proof.
  unfold column_fetch. induction 1 as [| g vs c vss G F IH]; intros i s r E B; [destruct i; discriminate |].
  cbn [find_seg concat] in *. pose proof G as [C _]. rewrite C. destruct (Nat.ltb_spec i (length vs)) as [H | H].
  - rewrite nth_error_app1 in E by lia. intros. eapply fetch_row_big; eauto.
  - rewrite nth_error_app2 in E by lia. eauto.
Qed.
Lemma rbind_Ok {A B} (x : res A) (f : A -> res B) b : rbind x f = Ok b -> exists a, x = Ok a /\ f a = Ok b.
Proof. destruct x; cbn; [eauto | discriminate]. Qed.
Lemma scan_loop_big bs m vs es n : forall i l j s r, minv bs m vs es -> i + n <= length vs ->
  scan_loop m i n (offset (limit bs) vs es i) = Ok l -> length l = n /\
  (nth_error vs (i + j) = Some (Some s) -> limit bs <= length s -> nth_error l j = Some r -> length r <= 8).
Proof.
  induction n as [| n IH]; intros i l j s r V H E; cbn [scan_loop] in E.
  { injection E as <-. split; [reflexivity |]. destruct j; discriminate. }
  rewrite (word_at bs m vs es) in E by (auto; lia). cbn [rbind] in E. rewrite (minv_as _ _ _ _ _ V) in E.
  apply rbind_Ok in E as (x & Ex & E). apply rbind_Ok in E as (y & Ey & E). injection E as <-.
  destruct (IH (S i) y (pred j) s r V ltac:(lia) Ey) as [L Q]. split; [cbn; lia |].
  destruct j as [| j]; cbn [nth_error pred] in *.
  - intros Hs B [= <-]. rewrite Nat.add_0_r in Hs. destruct (F2_nth _ _ _ _ _ (i_es _ _ _ _ V) Hs) as (e & He & Ee).
    unfold entry in Ee. destruct (Nat.leb_spec (limit bs) (length s)); [| lia].
    rewrite (length_of_offsets bs m vs es i e V He) in Ex. apply fetch_from_length in Ex as [-> | Ex]; cbn [length]; lia.
  - rewrite <- Nat.add_succ_comm. exact Q.
Qed.
Lemma column_scan_big bs c vss : Forall2 (sinv bs) c vss -> forall start n l j s r,
  start + n <= length (concat vss) -> column_scan c start n = Ok l -> length l = n /\
  (nth_error (concat vss) (start + j) = Some (Some s) -> limit bs <= length s -> nth_error l j = Some r -> length r <= 8).
Proof.
  induction 1 as [| g vs c vss G F IH]; intros start n l j s r L E.
  - cbn in *. injection E as <-. split; [cbn; lia | destruct j; discriminate].
  - cbn [column_scan concat] in *. pose proof G as [C [es V] ]. rewrite C in E. rewrite app_length in L.
    destruct (Nat.leb_spec (length vs) start) as [H | H].
    + destruct (IH (start - length vs) n l j s r ltac:(lia) E) as [Ll Q]. split; [exact Ll |]. rewrite nth_error_app2 by lia.
      replace (start + j - length vs) with (start - length vs + j) by lia. exact Q.
    + set (k := Nat.min n (length vs - start)) in *.
      apply rbind_Ok in E as (u & _ & E). apply rbind_Ok in E as (a & Ea & E). apply rbind_Ok in E as (b & Eb & E). injection E as <-.
      unfold scan in Ea. rewrite (prev_word bs _ vs es) in Ea by (auto; lia). cbn [rbind] in Ea. rewrite (minv_as _ _ _ _ _ V) in Ea.
      destruct (scan_loop_big bs _ vs es k start a j s r V ltac:(lia) Ea) as [La Qa]. rewrite app_length.
      assert (length b = n - k /\ (nth_error (concat vss) (j - k) = Some (Some s) -> limit bs <= length s -> nth_error b (j - k) = Some r -> length r <= 8)) as [Lb Qb].
      { destruct (Nat.eqb_spec (n - k) 0) as [Z | Z]; [injection Eb as <-; split; [cbn; lia | destruct (j - k); discriminate] |].
        apply (IH 0 (n - k) b (j - k) s r); [lia | exact Eb]. }
      split; [lia |]. destruct (Nat.lt_ge_cases j k) as [J | J].
      * rewrite nth_error_app1 by lia. rewrite nth_error_app1 by lia. exact Qa.
      * intros Hs B Hr. rewrite (nth_error_app2 a) in Hr by lia. rewrite La in Hr.
        assert (j - k < n - k) by (rewrite <- Lb; apply nth_error_Some; congruence).
        rewrite nth_error_app2 in Hs by lia. replace (start + j - length vs) with (j - k) in Hs by lia. auto.
Qed.

(** The theorems. *)
Lemma column_main bs junk chunks :
  32 <= bs -> (N.of_nat bs < 2 ^ 31)%N -> (forall n, length (junk n) = bs) ->
  exists c, append_chunks bs junk [] chunks = Ok c /\
    (forall i v, nth_error (concat chunks) i = Some v -> readable (limit bs) (concat chunks) i -> column_fetch c i = Ok (value v)) /\
    (forall start n, start + n <= length (concat chunks) ->
       (forall i, start <= i < start + n -> readable (limit bs) (concat chunks) i) ->
       column_scan c start n = Ok (map value (firstn n (skipn start (concat chunks))))).
Proof.
  intros B B2 J. destruct (append_chunks_ok bs junk J B B2 chunks [] []) as (c & E & vss & F & Eq); [exists []; auto |].
  cbn [app] in Eq. exists c. split; [exact E |]. rewrite Eq. split.
  - intros i v H R. apply (column_fetch_ok bs c vss F [] i v H R).
  - intros start n H R. apply (column_scan_ok bs c vss F [] start n H R).
Qed.
Lemma limit_big bs : 64 <= bs -> 8 < limit bs.
Proof. intros H. unfold limit. pose proof (Nat.div_le_mono 16 (bs / 4) 8 ltac:(lia) ltac:(lia)) as D. change (16 / 8) with 2 in D. lia. Qed.
Lemma column_long bs junk chunks c i s :
  64 <= bs -> (N.of_nat bs < 2 ^ 31)%N -> (forall n, length (junk n) = bs) -> append_chunks bs junk [] chunks = Ok c ->
  nth_error (concat chunks) i = Some (Some s) -> limit bs <= length s ->
  column_fetch c i <> Ok s /\
  (forall start n, start <= i < start + n -> start + n <= length (concat chunks) ->
   column_scan c start n <> Ok (map value (firstn n (skipn start (concat chunks))))).
Proof.
  intros B B2 J E H L. destruct (append_chunks_ok bs junk J ltac:(lia) B2 chunks [] []) as (c' & E' & vss & F & Eq); [exists []; auto |].
  rewrite E in E'. injection E' as <-. cbn [app] in Eq. rewrite Eq in *. pose proof (limit_big bs B) as Lb. split.
  - intros X. pose proof (column_fetch_big bs c vss F i s s H L X). lia.
  - intros start n H1 H2 X. destruct (column_scan_big bs c vss F start n _ (i - start) s s H2 X) as [_ Q].
    replace (start + (i - start)) with i in Q by lia. specialize (Q H L). enough (length s <= 8) by lia. apply Q.
    rewrite nth_error_map, nth_firstn by lia.
    assert (nth_error (skipn start (concat vss)) (i - start) = Some (Some s)) as ->; [| reflexivity].
    rewrite <- H. rewrite <- (firstn_skipn start (concat vss)) at 2. rewrite nth_error_app2; rewrite firstn_length; [f_equal; lia | lia].
Qed.
