From Verif Require Import Bytes Outcome ValidModel ValidSpec ValidProofs.
From Coq Require Import ZifyBool ZifyNat ZifyN.
Local Open Scope nat_scope.
Ltac Zify.zify_post_hook ::= Z.div_mod_to_equations.

Ltac csplit := unfold post, untouched; repeat match goal with |- _ /\ _ => split end; try match goal with |- frame _ _ _ => apply frame_refl end.

Lemma frame_untouched h h' m a : frame h h' a -> mptr m = Some a -> untouched h h' m.
Proof. intros [A B] E. split; [exact A|]. intros b Hb Hn. apply B; [exact Hb|congruence]. Qed.

(** [ensure]: an array is there, the rows are the same *)
Lemma ensure_spec h m : mask_ok h m ->
  exists h' m' a n, ensure h m = Ok (h', m') /\ mptr m' = Some a /\ mcnt m <= n /\ arr h' a n /\ post h h' m m' /\
    length h <= length h' /\ (forall b, b < length h -> nth_error h' b = nth_error h b) /\
    (mptr m = Some a \/ a = length h) /\
    (forall j, j < mcnt m -> valid h' m' j = valid h m j).
Proof.
  intros M. unfold ensure. destruct (mptr m) as [a|] eqn:E.
  - destruct (mask_ok_arr _ _ _ M E) as (n & Ln & A). exists h, m, a, n.
    split; [reflexivity|]. split; [exact E|]. split; [exact Ln|]. split; [exact A|]. split.
    { csplit; auto. congruence. }
    csplit; auto.
  - unfold resize. rewrite E.
    pose proof (alloc_ok h (fresh (mcnt m)) (mcnt m) (repeat_length _ _) (fresh_w64 _)) as X.
    pose proof (fun j => fresh_rowb h (mcnt m) j) as FR. destruct (alloc h (fresh (mcnt m))) as [h1 a].
    destruct X as (Ea & L1 & A & W & F1). cbn [fst snd] in FR.
    exists h1, {| mptr := Some a; mcnt := mcnt m |}, a, (mcnt m). split; [reflexivity|]. split; [reflexivity|]. split; [lia|]. split; [exact A|].
    split; [|split; [lia|split; [exact F1|split; [auto|]]]].
    + split; [eapply arr_mask_ok; cbn; eauto|]. split; [reflexivity|]. split; [|split; [congruence|]].
      * split; [lia|]. intros b Hb _. apply F1. exact Hb.
      * intros _ b Hb X. cbn in X. injection X as X. lia.
    + intros j Hj. rewrite (valid_some _ _ a) by reflexivity. rewrite FR by lia. rewrite valid_none by exact E. reflexivity.
Qed.

Lemma set_invalid_spec h m row : mask_ok h m -> row < mcnt m ->
  exists h' m', set_invalid h m row = Ok (h', m') /\ post h h' m m' /\
    forall j, j < mcnt m -> valid h' m' j = if j =? row then false else valid h m j.
Proof.
  intros M H. destruct (ensure_spec h m M) as (h1 & m1 & a & n & E & Em & Ln & A & P & L1 & F1 & _ & V).
  unfold set_invalid. rewrite E. cbn [rbind snd fst]. rewrite Em.
  destruct (set_bit_ok h1 a n row false A ltac:(lia)) as (h' & Q & L & F & A' & R).
  change BITS with 64 in *. destruct (rdw h1 a (row / 64)); [|discriminate]. cbn [rbind] in *. rewrite Q. cbn [rbind].
  exists h', m1. split; [reflexivity|]. destruct P as (P1 & P2 & P3 & P4 & P5). split.
  - split; [apply (arr_mask_ok h' m1 a n); [exact Em|lia|exact A']|]. split; [exact P2|]. split; [|split; [exact P4|exact P5]].
    destruct P3 as [X Y]. destruct F as [F3 F4]. split; [lia|]. intros b Hb Hn. rewrite F4; [apply Y; auto|lia|].
    intros ->. destruct (mptr m) as [q0|] eqn:Q0; [apply Hn; rewrite <- Em; apply P4; discriminate|].
    apply (P5 eq_refl a Hb). exact Em.
  - intros j Hj. rewrite <- (V j Hj). rewrite !(valid_some _ _ _ _ Em). rewrite R. reflexivity.
Qed.

(** [resize] *)
Lemma resize_spec h m n : mask_ok h m ->
  exists h' m', resize h m n = Ok (h', m') /\ mask_ok h' m' /\ mcnt m' = (if (if mptr m then n <=? mcnt m else false) then mcnt m else n) /\
    length h <= length h' /\ (forall b, b < length h -> nth_error h' b = nth_error h b) /\
    (forall j, j < mcnt m -> j < mcnt m' -> valid h' m' j = valid h m j) /\
    (forall j, 64 * entry_count (mcnt m) <= j -> mcnt m <= j < mcnt m' -> valid h' m' j = true).
Proof.
  intros M. unfold resize. destruct (mptr m) as [p|] eqn:E.
  - destruct (Nat.leb_spec n (mcnt m)) as [Hle|Hgt].
    + exists h, m. csplit; auto. intros j _ X. lia.
    + destruct (mask_ok_arr _ _ _ M E) as (np & Lp & Ap).
      pose proof (alloc_ok h (fresh n) n (repeat_length _ _) (fresh_w64 _)) as X.
      pose proof (fun j => fresh_rowb h n j) as FR. destruct (alloc h (fresh n)) as [h1 a].
      destruct X as (Ea & L1 & A & W & F1). cbn [fst snd] in FR.
      pose proof (arr_lt _ _ _ Ap) as Lpt. assert (Npa : p <> a) by lia.
      assert (Ap1 : arr h1 p np). { destruct Ap as (ws & Q & R). exists ws. rewrite F1; auto. }
      assert (EC : forall x y, 0 < x -> x <= y -> entry_count x <= y) by (unfold entry_count; change BITS with 64; intros; lia).
      assert (ECm : entry_count (mcnt m) <= mcnt m) by (unfold entry_count; change BITS with 64; lia).
      assert (ECn : entry_count n <= n) by (unfold entry_count; change BITS with 64; lia).
      assert (ECmn : entry_count (mcnt m) <= entry_count n) by (unfold entry_count; change BITS with 64; lia).
      destruct (forn_ind (fun k g => length g = length h1 /\ frame h1 g a /\ arr g a n /\
                            forall j, wd g a j = if j <? k then wd h1 p j else wd h1 a j)
                  (fun i g => do w <- rdw g p i; wrw g a i w) (entry_count (mcnt m)) 0 h1) as (h2 & E2 & (L2 & F2 & A2 & W2)).
      { csplit; auto. }
      { intros k g Hk (Lg & Fg & Ag & Wg). assert (Apg : arr g p np) by (eapply frame_arr; eauto).
        erewrite rdw_ok; [|exact Apg|lia]. cbn [rbind].
        destruct (wrw_ok g a n k (wd g p k) Ag) as (g' & Q & Lg' & Fg' & Ag' & Wg'); [lia|eapply arr_w64; eauto|].
        exists g'. split; [exact Q|]. split; [lia|]. split; [eapply frame_trans; eauto|]. split; [exact Ag'|].
        intros j. rewrite Wg', Wg. destruct (Nat.eqb_spec j k) as [->|Q'].
        - replace (k <? S k) with true by lia. apply (frame_wd h1 g a p k Fg); lia.
        - replace (j <? S k) with (j <? k) by lia. reflexivity. }
      rewrite E2. cbn [rbind]. rewrite Nat.add_0_l in W2.
      destruct (forn_ind (fun k g => length g = length h1 /\ frame h1 g a /\ arr g a n /\
                            forall j, wd g a j = if j <? entry_count (mcnt m) then wd h1 p j else if j <? k then MAX_ENTRY else wd h1 a j)
                  (fun i g => wrw g a i MAX_ENTRY) (entry_count n - entry_count (mcnt m)) (entry_count (mcnt m)) h2) as (h3 & E3 & (L3 & F3 & A3 & W3)).
      { csplit; auto; try apply F2. intros j. rewrite W2. destruct (j <? entry_count (mcnt m)); reflexivity. }
      { intros k g Hk (Lg & Fg & Ag & Wg).
        destruct (wrw_ok g a n k MAX_ENTRY Ag) as (g' & Q & Lg' & Fg' & Ag' & Wg'); [lia|reflexivity|].
        exists g'. split; [exact Q|]. split; [lia|]. split; [eapply frame_trans; eauto|]. split; [exact Ag'|].
        intros j. rewrite Wg', Wg. destruct (Nat.eqb_spec j k) as [->|Q'].
        - replace (k <? entry_count (mcnt m)) with false by lia. replace (k <? S k) with true by lia. reflexivity.
        - replace (j <? S k) with (j <? k) by lia. reflexivity. }
      rewrite E3. cbn [rbind]. exists h3, {| mptr := Some a; mcnt := n |}. split; [reflexivity|].
      split; [eapply arr_mask_ok; cbn; eauto|]. split; [reflexivity|]. split; [lia|]. split; [|split].
      * intros b Hb. destruct F3 as [_ F3]. rewrite F3 by lia. apply F1. exact Hb.
      * intros j Hj _. rewrite (valid_some _ _ a) by reflexivity. rewrite (valid_some _ _ _ _ E). unfold rowb. rewrite W3.
        replace (j / 64 <? entry_count (mcnt m)) with true by (unfold entry_count; change BITS with 64; lia).
        unfold wd, words. rewrite F1 by lia. reflexivity.
      * intros j Hj1 Hj. cbn [mcnt] in Hj. rewrite (valid_some _ _ a) by reflexivity. unfold rowb. rewrite W3.
        replace (j / 64 <? entry_count (mcnt m)) with false by lia.
        replace (j / 64 <? entry_count (mcnt m) + (entry_count n - entry_count (mcnt m))) with true
          by (unfold entry_count in *; change BITS with 64 in *; lia).
        rewrite tb_max. lia.
  - pose proof (alloc_ok h (fresh n) n (repeat_length _ _) (fresh_w64 _)) as X.
    pose proof (fun j => fresh_rowb h n j) as FR. destruct (alloc h (fresh n)) as [h1 a].
    destruct X as (Ea & L1 & A & W & F1). cbn [fst snd] in FR.
    exists h1, {| mptr := Some a; mcnt := n |}. split; [reflexivity|]. split; [eapply arr_mask_ok; cbn; eauto|].
    split; [reflexivity|]. split; [lia|]. split; [exact F1|]. cbn [mcnt]. split; intros j ? ?.
    + rewrite (valid_some _ _ a) by reflexivity. rewrite FR by lia. rewrite valid_none by exact E. reflexivity.
    + rewrite (valid_some _ _ a) by reflexivity. apply FR. lia.
Qed.

(** [set_all_invalid] on a mask with an array *)
Lemma set_all_invalid_spec h m count : mask_ok h m -> mptr m <> None -> count <= mcnt m ->
  exists h', set_all_invalid h m count = Ok h' /\ mask_ok h' m /\ untouched h h' m /\
    (forall j, j < count -> valid h' m j = false) /\
    (forall j, 64 * entry_count count <= j -> valid h' m j = valid h m j).
Proof.
  intros M NN H. unfold set_all_invalid. destruct (Nat.eqb_spec count 0) as [->|Hc].
  { exists h. csplit; auto. intros j X. lia. }
  destruct (mptr m) as [a|] eqn:E; [|congruence]. destruct (mask_ok_arr _ _ _ M E) as (n & Ln & A).
  assert (EC : entry_count count <= count /\ 1 <= entry_count count) by (unfold entry_count; change BITS with 64; lia).
  destruct (forn_ind (fun k g => length g = length h /\ frame h g a /\ arr g a n /\
              forall j, wd g a j = if j <? k then 0%N else wd h a j)
             (fun i g => wrw g a i 0) (entry_count count - 1) 0 h) as (h1 & E1 & (L1 & F1 & A1 & W1)).
  { csplit; auto. }
  { intros k g Hk (Lg & Fg & Ag & Wg). destruct (wrw_ok g a n k 0%N Ag) as (g' & Q & Lg' & Fg' & Ag' & Wg'); [lia|reflexivity|].
    exists g'. split; [exact Q|]. split; [lia|]. split; [eapply frame_trans; eauto|]. split; [exact Ag'|].
    intros j. rewrite Wg', Wg. destruct (Nat.eqb_spec j k) as [->|Q'].
    - replace (k <? S k) with true by lia. reflexivity.
    - replace (j <? S k) with (j <? k) by lia. reflexivity. }
  rewrite E1. cbn [rbind]. rewrite Nat.add_0_l in W1. change BITS with 64 in *.
  destruct (wrw_ok h1 a n (entry_count count - 1) (if count mod 64 =? 0 then 0%N else shl MAX_ENTRY (count mod 64)) A1) as (h2 & Q & L2 & F2 & A2 & W2).
  { lia. } { destruct (count mod 64 =? 0); [reflexivity|apply w64_shl]. }
  rewrite Q. exists h2. split; [reflexivity|]. split; [eapply arr_mask_ok; eauto|].
  split; [eapply frame_untouched; [eapply frame_trans; eauto|exact E]|].
  assert (ECd : entry_count count = (count + 63) / 64) by reflexivity. split; intros j Hj.
  - rewrite (valid_some _ _ _ _ E). unfold rowb. rewrite W2, W1.
    destruct (Nat.eqb_spec (j / 64) (entry_count count - 1)) as [X|X].
    + destruct (Nat.eqb_spec (count mod 64) 0); [apply N.bits_0|]. rewrite tb_shl.
      replace (N.of_nat (count mod 64) <=? N.of_nat (j mod 64))%N with false by lia. rewrite andb_false_r. reflexivity.
    + replace (j / 64 <? entry_count count - 1) with true by lia. apply N.bits_0.
  - rewrite !(valid_some _ _ _ _ E). unfold rowb. rewrite W2, W1.
    replace (j / 64 =? entry_count count - 1) with false by lia. replace (j / 64 <? entry_count count - 1) with false by lia. reflexivity.
Qed.

(** [copy] *)
Lemma firstn_nth {A} (d : A) n l i : i < n -> nth i (firstn n l) d = nth i l d.
Proof. revert l i. induction n as [|n IH]; intros [|x l] [|i] H; cbn; auto; try lia. apply IH. lia. Qed.
Lemma copy_words_ok h a n size : arr h a n -> size <= n ->
  exists ws, copy_words h a size = Ok ws /\ length ws = size /\ Forall w64 ws /\ forall i, i < size -> nth i ws 0%N = wd h a i.
Proof.
  intros (ws & E & L & F) H. unfold copy_words. rewrite E. replace (size <=? length ws) with true by lia.
  exists (firstn size ws). split; [reflexivity|]. split; [rewrite firstn_length; lia|]. split.
  - apply Forall_forall. intros x Hx. rewrite Forall_forall in F. apply F. rewrite <- (firstn_skipn size ws). apply in_or_app. auto.
  - intros i Hi. unfold wd, words. rewrite E. apply firstn_nth. exact Hi.
Qed.
Lemma copy_spec h m : mask_ok h m ->
  exists h' m', copy h m = Ok (h', m') /\ mask_ok h' m' /\ mcnt m' = mcnt m /\
    length h <= length h' /\ (forall b, b < length h -> nth_error h' b = nth_error h b) /\
    (forall b, b < length h -> mptr m' <> Some b) /\
    (forall j, j < mcnt m -> valid h' m' j = valid h m j).
Proof.
  intros M. unfold copy. destruct (mptr m) as [a|] eqn:E.
  - destruct (mask_ok_arr _ _ _ M E) as (n & Ln & A). destruct (copy_words_ok h a n (mcnt m) A Ln) as (ws & C & Lw & Fw & W).
    rewrite C. cbn [rbind]. pose proof (alloc_ok h ws (mcnt m) Lw Fw) as X. destruct (alloc h ws) as [h1 b].
    destruct X as (Ea & L1 & A1 & W1 & F1).
    exists h1, {| mptr := Some b; mcnt := mcnt m |}. split; [reflexivity|]. split; [eapply arr_mask_ok; [reflexivity|apply Nat.le_refl|eassumption]|].
    split; [reflexivity|]. split; [lia|]. split; [exact F1|]. split; [intros c Hc Q; cbn in Q; injection Q as Q; lia|].
    intros j Hj. rewrite (valid_some _ _ b) by reflexivity. rewrite (valid_some _ _ _ _ E). unfold rowb. rewrite W1, W by lia. reflexivity.
  - exists h, m. csplit; auto. congruence.
Qed.

(** [combine] *)
Lemma combine_spec h m o count : mask_ok h m -> mask_ok h o -> count <= mcnt m -> mcnt m <= mcnt o ->
  exists h' m', combine h m o count = Ok (h', m') /\ mask_ok h' m' /\ mcnt m' = mcnt m /\
    length h <= length h' /\ (forall b, b < length h -> nth_error h' b = nth_error h b) /\
    (forall j, j < count -> valid h' m' j = valid h m j && valid h o j) /\
    (forall j, 64 * entry_count count <= j -> mptr m <> None -> j < mcnt m -> valid h' m' j = valid h m j).
Proof.
  intros M O Hc Hmo. unfold combine. destruct (mptr o) as [b|] eqn:Eo.
  2:{ exists h, m. csplit; auto. intros j Hj. rewrite (valid_none _ o) by exact Eo. rewrite andb_true_r. reflexivity. }
  destruct (mask_ok_arr _ _ _ O Eo) as (nb & Lb & Ab).
  destruct (mptr m) as [a|] eqn:Em.
  - destruct (Nat.eqb_spec a b) as [->|Nab].
    + exists h, m. csplit; auto. intros j Hj. rewrite (valid_some _ _ _ _ Em), (valid_some _ _ _ _ Eo). destruct (rowb h b j); reflexivity.
    + destruct (mask_ok_arr _ _ _ M Em) as (n & Ln & A). destruct (copy_words_ok h a n (mcnt m) A Ln) as (ws & C & Lw & Fw & W).
      rewrite C. cbn [rbind]. pose proof (alloc_ok h ws (mcnt m) Lw Fw) as X. destruct (alloc h ws) as [h1 a'].
      destruct X as (Ea & L1 & A1 & W1 & F1). pose proof (arr_lt _ _ _ Ab) as Lbt.
      assert (Ab1 : arr h1 b nb). { destruct Ab as (wb & Q & R). exists wb. rewrite F1; auto. }
      assert (EC : entry_count count <= count) by (unfold entry_count; change BITS with 64; lia).
      destruct (forn_ind (fun k g => length g = length h1 /\ frame h1 g a' /\ arr g a' (mcnt m) /\
                            forall j, wd g a' j = if j <? k then N.land (wd h1 a' j) (wd h1 b j) else wd h1 a' j)
                  (fun i g => do x <- rdw g a' i; do y <- rdw g b i; wrw g a' i (N.land x y)) (entry_count count) 0 h1) as (h2 & E2 & (L2 & F2 & A2 & W2)).
      { csplit; auto. }
      { intros k g Hk (Lg & Fg & Ag & Wg). assert (Abg : arr g b nb) by (eapply frame_arr; eauto; lia).
        erewrite rdw_ok; [|exact Ag|lia]. cbn [rbind]. erewrite rdw_ok; [|exact Abg|lia]. cbn [rbind].
        destruct (wrw_ok g a' (mcnt m) k (N.land (wd g a' k) (wd g b k)) Ag) as (g' & Q & Lg' & Fg' & Ag' & Wg'); [lia|apply w64_land; eapply arr_w64; eauto|].
        exists g'. split; [exact Q|]. split; [lia|]. split; [eapply frame_trans; eauto|]. split; [exact Ag'|].
        intros j. rewrite Wg', !Wg. destruct (Nat.eqb_spec j k) as [->|Q'].
        - replace (k <? S k) with true by lia. replace (k <? k) with false by lia. f_equal. apply (frame_wd h1 g a' b k Fg); lia.
        - replace (j <? S k) with (j <? k) by lia. reflexivity. }
      rewrite E2. cbn [rbind]. rewrite Nat.add_0_l in W2.
      exists h2, {| mptr := Some a'; mcnt := mcnt m |}. split; [reflexivity|]. split; [eapply arr_mask_ok; [reflexivity|apply Nat.le_refl|eassumption]|].
      split; [reflexivity|]. split; [lia|]. assert (FF : forall c, c < length h -> nth_error h2 c = nth_error h c).
      { intros c Hc'. destruct F2 as [_ F2]. rewrite F2 by lia. apply F1. exact Hc'. }
      split; [exact FF|]. split.
      * intros j Hj. rewrite (valid_some _ _ a') by reflexivity. rewrite (valid_some _ _ _ _ Em), (valid_some _ _ _ _ Eo). unfold rowb. rewrite W2.
        replace (j / 64 <? entry_count count) with true by (unfold entry_count; change BITS with 64; lia).
        rewrite N.land_spec, W1, W by lia. f_equal. f_equal. unfold wd, words. rewrite F1 by lia. reflexivity.
      * intros j Hj _ Hj2. rewrite (valid_some _ _ a') by reflexivity. rewrite (valid_some _ _ _ _ Em). unfold rowb. rewrite W2.
        replace (j / 64 <? entry_count count) with false by lia. rewrite W1, W by lia. reflexivity.
  - destruct (copy_words_ok h b nb (mcnt m) Ab ltac:(lia)) as (ws & C & Lw & Fw & W).
    rewrite C. cbn [rbind]. pose proof (alloc_ok h ws (mcnt m) Lw Fw) as X. destruct (alloc h ws) as [h1 a'].
    destruct X as (Ea & L1 & A1 & W1 & F1).
    exists h1, {| mptr := Some a'; mcnt := mcnt m |}. split; [reflexivity|]. split; [eapply arr_mask_ok; [reflexivity|apply Nat.le_refl|eassumption]|].
    split; [reflexivity|]. split; [lia|]. split; [exact F1|]. split; [|congruence].
    intros j Hj. rewrite (valid_some _ _ a') by reflexivity. rewrite (valid_none _ _ _ Em), (valid_some _ _ _ _ Eo). unfold rowb. rewrite W1, W by lia. reflexivity.
Qed.
