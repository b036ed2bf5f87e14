(** * Proofs about the B+-tree: splitting and merging inner nodes *)
From Coq Require Import List ZArith Lia Arith Bool Permutation Sorted ZifyNat ZifyBool.
From Verif Require Import Bytes Outcome BtModel BtSpec BtProofs BtProofs2.
Import ListNotations.
Ltac Zify.zify_post_hook ::= Z.div_mod_to_equations.

Section Up.
Variable M : nat.
Hypothesis HM : 12 <= M.
Notation m := (mincap M).
Notation lvok := (lvok M).
Notation pre := (pre M).
Notation bounds := (bounds M).

Lemma sub_seq_nth a q b i d : a <= q <= b -> i < b - a ->
  nth i (seq a (q - a) ++ seq (S q) (b - q)) d = if i <? q - a then a + i else S (a + i).
Proof.
  intros H Hi. destruct (Nat.ltb_spec i (q - a)).
  - rewrite app_nth1 by (rewrite seq_length; lia). now rewrite seq_nth.
  - rewrite app_nth2 by (rewrite seq_length; lia). rewrite seq_length, seq_nth by lia. lia.
Qed.

(** the new node goes right after the node it was split from *)
Lemma insert_here_ok ls lv a q b : row ls -> chain lv (length ls) ->
  a <= q <= b -> b < width lv (length ls) -> insert_here ls lv a q b = true.
Proof.
  intros Hr Hc Hq Hb. unfold insert_here. apply Nat.eqb_eq.
  set (f := node_min ls lv). set (idx := seq a (q - a) ++ seq (S q) (b - q)).
  assert (Hl : length (map f idx) = b - a).
  { subst idx. rewrite map_length, app_length, !seq_length. lia. }
  assert (Hn : forall i, i < b - a -> nth i (map f idx) PosInf = f (if i <? q - a then a + i else S (a + i))).
  { intros i Hi. rewrite (nth_indep _ PosInf (f 0)) by now rewrite Hl.
    rewrite map_nth. subst idx. now rewrite sub_seq_nth by lia. }
  assert (Hf : forall i, i <= b -> f i = Fin (nmn ls lv i)).
  { intros i Hi. apply node_min_fin; auto. lia. }
  apply lb_eq; rewrite ?Hl; [lia | | ].
  - intros i Hi. rewrite Hn by lia. replace (i <? q - a) with true by lia.
    rewrite !Hf by lia. cbn. pose proof (nmn_mono ls lv (a + i) q Hr Hc ltac:(lia)). lia.
  - intro Hi. rewrite Hn by lia. rewrite Nat.ltb_irrefl. rewrite !Hf by lia. cbn.
    replace (a + (q - a)) with q by lia.
    pose proof (nmn_mono ls lv q (S q) Hr Hc ltac:(lia)). lia.
Qed.

Lemma lvok_level a c b rest' w : lvok ((a ++ c :: b) :: rest') w ->
  list_sum a + c + list_sum b = w /\ c <= M /\ 2 <= c /\ lvok rest' (length a + S (length b)) /\
  (rest' <> [] -> Forall bounds a /\ bounds c /\ Forall bounds b) /\
  (rest' = [] -> a = [] /\ b = []).
Proof.
  cbn [BtProofs2.lvok]. intros (H1 & H2 & H3). rewrite sum_app, sum_cons in H1.
  rewrite app_length in H2. cbn [length] in H2.
  destruct rest' as [ | g' rest'].
  - destruct H3 as (n & E & Hn). destruct a as [ | x a]; cbn in E; [ | now destruct a].
    injection E as -> ->. split; [exact H1 | ]. split; [lia | ]. split; [lia | ]. split; [exact H2 | ].
    split; [congruence | auto].
  - apply Forall_app in H3 as (Ha & H3). inversion H3 as [ | ? ? Hc Hb]; subst.
    pose proof (m3 M HM). pose proof Hc as Hc'. unfold BtProofs2.bounds in Hc'.
    split; [lia | ]. split; [lia | ]. split; [lia | ]. split; [exact H2 | ].
    split; [auto | discriminate].
Qed.

Lemma push_up_ok ls : row ls ->
  forall rest below rp w c,
  pre (rev below) (length ls) (S w) -> lvok rest w -> rest <> [] -> posn rest rp c -> c < w ->
  exists lv', push_up M ls below rest rp (R (fun c => c <? M) (bcounts rest rp)) (S c) = Ok lv' /\
    lvok (rev lv') (length ls).
Proof.
  intros Hr rest. induction rest as [ | g rest IH]; intros bel rp w c Hpre Hlv Hne Hpos Hc; [congruence | ].
  destruct rp as [ | j rp]; [easy | ]. destruct Hpos as (P1 & P2 & P3).
  destruct (level_split g j P1) as (a & n & b & -> & <-).
  destruct (lvok_level _ _ _ _ _ Hlv) as (L1 & L2 & L3 & L4 & L5 & L6).
  destruct (pre_chain M HM bel (length ls) (S w) Hpre) as (C1 & C2).
  rewrite first_child_mid, nchild_mid in P2.
  cbn [push_up bcounts R]. rewrite first_child_mid, nchild_mid.
  destruct (Nat.ltb_spec n M) as [Hn | Hn].
  - rewrite insert_here_ok by (auto; lia). eexists. split; [reflexivity | ].
    rewrite set_mid, rev_app_distr, rev_involutive. cbn [rev]. rewrite <- app_assoc. cbn [app].
    apply lvok_app. exists (S w). split; [exact Hpre | ].
    cbn [BtProofs2.lvok]. rewrite sum_app, sum_cons, app_length. cbn [length].
    split; [lia | ]. split; [exact L4 | ]. destruct rest as [ | g' rest].
    + destruct (L6 eq_refl) as (-> & ->). exists (S n). cbn. split; [reflexivity | lia].
    + destruct (L5 ltac:(discriminate)) as (B1 & B2 & B3). apply Forall_app. split; [exact B1 | ].
      constructor; [unfold BtProofs2.bounds in *; lia | exact B3].
  - assert (n = M) by lia. subst n. clear Hn L2.
    set (sa := list_sum a) in *. set (bb := sa + (M - M / 2)).
    assert (Hmin : forall i, i <= w -> node_min ls bel i = Fin (nmn ls bel i)).
    { intros i Hi. apply node_min_fin; auto. lia. }
    assert (E : ext_ltb (node_min ls bel (if bb <? S c then bb else S bb)) (node_min ls bel (S c)) = (bb <? S c)).
    { destruct (Nat.ltb_spec bb (S c)) as [Hb | Hb].
      - rewrite !Hmin by lia. cbn. pose proof (nmn_mono ls bel bb (S c) Hr C1 ltac:(lia)). lia.
      - assert (S bb <= w) by (subst bb; lia). rewrite !Hmin by lia. cbn.
        pose proof (nmn_mono ls bel (S c) (S bb) Hr C1 ltac:(lia)). lia. }
    rewrite E. clear E.
    assert (Go : forall x y, x + y = S M -> bounds x -> bounds y ->
      exists lv',
      match R (fun c0 => c0 <? M) (bcounts rest rp), rest with
      | 0, [] => Ok ([2] :: (firstn (length a) (a ++ M :: b) ++ x :: y :: skipn (S (length a)) (a ++ M :: b)) :: bel)
      | 0, _ => Err UB
      | S _, _ => push_up M ls ((firstn (length a) (a ++ M :: b) ++ x :: y :: skipn (S (length a)) (a ++ M :: b)) :: bel)
                    rest rp (R (fun c0 => c0 <? M) (bcounts rest rp)) (S (length a))
      end = Ok lv' /\ lvok (rev lv') (length ls)).
    { intros x y Hxy Bx By. rewrite firstn_mid, skipn_mid1.
      assert (Hpre' : Forall bounds a -> Forall bounds b ->
        pre (rev ((a ++ x :: y :: b) :: bel)) (length ls) (S (length a + S (length b)))).
      { intros Ba Bb. cbn [rev]. apply pre_snoc. exists (S w). split; [exact Hpre | ].
        rewrite sum_app, !sum_cons, app_length. cbn [length]. split; [subst sa; lia | ]. split; [ | lia].
        apply Forall_app. split; [exact Ba | ]. constructor; [exact Bx | ]. constructor; [exact By | exact Bb]. }
      destruct rest as [ | g' rest].
      - destruct (L6 eq_refl) as (-> & ->). destruct rp; [ | easy]. cbn [bcounts R].
        eexists. split; [reflexivity | ].
        specialize (Hpre' ltac:(constructor) ltac:(constructor)). cbn [app length] in *.
        cbn [rev] in Hpre' |- *. rewrite <- app_assoc. cbn [app].
        change (rev bel ++ [[x; y]; [2]]) with (rev bel ++ ([x; y] :: [[2]])).
        change (rev bel ++ [[x; y]]) with (rev bel ++ [x; y] :: []) in Hpre'.
        apply pre_snoc in Hpre' as (w' & Q1 & Q2 & Q3 & Q4).
        apply lvok_app. exists w'. split; [exact Q1 | ].
        cbn [BtProofs2.lvok length]. split; [exact Q2 | ]. split; [ | exact Q3].
        split; [reflexivity | ]. split; [reflexivity | ]. exists 2. split; [reflexivity | lia].
      - destruct rp as [ | j' rp]; [easy | ].
        destruct (L5 ltac:(discriminate)) as (B1 & B2 & B3).
        destruct (IH ((a ++ x :: y :: b) :: bel) (j' :: rp) (length a + S (length b)) (length a)
                     (Hpre' B1 B3) L4 ltac:(discriminate) P3 ltac:(lia)) as (lv' & E & Hlv').
        exists lv'. split; [ | exact Hlv']. cbn [bcounts R] in E |- *. exact E. }
    assert (Hhalf : bounds (M - M / 2) /\ bounds (S (M / 2)) /\ bounds (S (M - M / 2)) /\ bounds (M / 2)).
    { unfold BtProofs2.bounds, mincap. repeat split; lia. }
    destruct Hhalf as (Q1 & Q2 & Q3 & Q4).
    destruct (Nat.ltb_spec bb (S c)) as [Hb | Hb].
    + rewrite insert_here_ok by (auto; lia). replace (bb <=? S c) with true by lia. cbn [andb].
      apply Go; auto. lia.
    + rewrite insert_here_ok by (auto; subst bb; lia).
      replace (S c <=? bb) with true by lia. cbn [andb]. apply Go; auto. lia.
Qed.

(** ** Merging *)

Lemma nchild_app2 (a : list nat) c d b : nchild (a ++ c :: d :: b) (S (length a)) = d.
Proof.
  unfold nchild. rewrite app_nth2 by lia. replace (S (length a) - length a) with 1 by lia. reflexivity.
Qed.

Lemma skipn_mid2 {A} (a : list A) x y b : skipn (S (S (length a))) (a ++ x :: y :: b) = b.
Proof.
  replace (a ++ x :: y :: b) with ((a ++ [x]) ++ y :: b) by (rewrite <- app_assoc; reflexivity).
  replace (S (length a)) with (length (a ++ [x])) by (rewrite app_length; cbn; lia).
  apply skipn_mid1.
Qed.

Lemma shrink_up_ok N :
  forall rest below rp w c,
  pre (rev below) N w -> lvok rest (S w) -> rest <> [] -> posn rest rp c ->
  exists lv', shrink_up M below rest rp (R (fun c => m <? c) (bcounts rest rp) - 1) = Ok lv' /\ lvok (rev lv') N.
Proof.
  pose proof (m3 M HM) as Hm3. pose proof (m_M M HM) as HmM.
  intro rest. induction rest as [ | g rest IH]; intros bel rp w c Hpre Hlv Hne Hpos; [congruence | ].
  destruct rp as [ | j rp]; [easy | ]. destruct Hpos as (P1 & P2 & P3).
  destruct (level_split g j P1) as (a & n & b & -> & <-).
  destruct (lvok_level _ _ _ _ _ Hlv) as (L1 & L2 & L3 & L4 & L5 & L6).
  cbn [bcounts R]. rewrite nchild_mid.
  replace (S (if m <? n then 0 else R (fun c0 => m <? c0) (bcounts rest rp)) - 1)
    with (if m <? n then 0 else R (fun c0 => m <? c0) (bcounts rest rp)) by lia.
  cbn [shrink_up]. rewrite nchild_mid, set_mid.
  assert (Top : forall g', list_sum g' = w -> (rest <> [] -> Forall bounds g') -> length g' = length a + S (length b) ->
     (rest = [] -> exists k, g' = [k] /\ 2 <= k <= M) ->
     lvok (rev (rev rest ++ g' :: bel)) N).
  { intros g' S1 S2 S3 S4. rewrite rev_app_distr, rev_involutive. cbn [rev]. rewrite <- app_assoc. cbn [app].
    apply lvok_app. exists w. split; [exact Hpre | ]. cbn [BtProofs2.lvok]. rewrite S3.
    split; [exact S1 | ]. split; [exact L4 | ]. destruct rest as [ | g1 rest']; [now apply S4 | ].
    apply S2. discriminate. }
  destruct rest as [ | g1 rest].
  - destruct (L6 eq_refl) as (-> & ->). destruct rp; [ | easy]. cbn [bcounts R]. cbn [list_sum app] in *.
    replace (if m <? n then 0 else 0) with 0 by now destruct (m <? n).
    destruct (Nat.eqb_spec (n - 1) 1) as [E | E].
    + eexists. split; [reflexivity | ]. apply (pre_lvok M HM). replace 1 with w by (cbn [list_sum fold_right] in L1; lia). exact Hpre.
    + eexists. split; [reflexivity | ]. apply Top.
      * cbn. cbn in L1. lia.
      * congruence.
      * reflexivity.
      * intros _. exists (n - 1). split; [reflexivity | lia].
  - assert (Hr : g1 :: rest <> []) by discriminate.
    destruct (L5 Hr) as (B1 & B2 & B3). pose proof B2 as B2'. unfold BtProofs2.bounds in B2.
    replace (n - 1 =? 1) with false by lia.
    destruct (Nat.ltb_spec m n) as [Hmn | Hmn].
    + eexists. split; [reflexivity | ]. apply Top; try easy.
      * rewrite sum_app, sum_cons. lia.
      * intros _. apply Forall_app. split; [exact B1 | ]. constructor; [ | exact B3].
        unfold BtProofs2.bounds. lia.
      * rewrite app_length. reflexivity.
    + assert (n = m) by lia. subst n. clear Hmn B2 L2 L3 B2'.
      destruct rp as [ | j' rp]; [easy | ].
      assert (Len : 2 <= length a + S (length b)) by exact (lvok_two M HM _ _ _ L4).
      (* recursion on a merged level *)
      assert (Rec : forall g', list_sum g' = w -> Forall bounds g' -> S (length g') = length a + S (length b) ->
        exists lv', shrink_up M (g' :: bel) (g1 :: rest) (j' :: rp)
          (R (fun c0 => m <? c0) (bcounts (g1 :: rest) (j' :: rp)) - 1) = Ok lv' /\ lvok (rev lv') N).
      { intros g' S1 S2 S3. apply (IH (g' :: bel) (j' :: rp) (length g') (length a)); auto.
        - cbn [rev]. apply pre_snoc. exists w. auto.
        - now rewrite S3. }
      assert (EQ : R (fun c0 => m <? c0) (bcounts (g1 :: rest) (j' :: rp)) =
                   S (R (fun c0 => m <? c0) (bcounts (g1 :: rest) (j' :: rp)) - 1)) by (cbn [bcounts R]; lia).
      rewrite EQ. set (nn := R (fun c0 => m <? c0) (bcounts (g1 :: rest) (j' :: rp)) - 1) in *. clear EQ.
      clearbody nn. cbn beta iota. change (share M) with (M / 2).
      (* the neighbours *)
      destruct b as [ | o b].
      * (* no right neighbour *)
        replace (S (length a) <? length (a ++ [m - 1])) with false by (rewrite app_length; cbn [length]; lia).
        cbn [andb]. cbn [length] in Len.
        destruct (exists_last (l := a)) as (a' & o & ->); [intros -> ; cbn in Len; lia | ].
        rewrite app_length in *. cbn [length] in *.
        replace (0 <? length a' + 1) with true by lia. cbn [andb].
        replace (length a' + 1 - 1) with (length a') by lia.
        rewrite <- app_assoc. cbn [app]. rewrite nchild_mid, firstn_mid.
        replace (S (length a' + 1)) with (S (S (length a'))) by lia.
        rewrite skipn_mid2.
        apply Forall_app in B1 as (B1 & B4). inversion B4 as [ | ? ? Bo _]; subst.
        rewrite sum_app, sum_cons in L1. unfold BtProofs2.bounds in Bo. cbn [list_sum fold_right] in L1.
        destruct (Nat.leb_spec o (M / 2)) as [Ho | Ho].
        -- apply Rec.
           ++ rewrite sum_app, sum_cons. cbn [list_sum fold_right]. lia.
           ++ apply Forall_app. split; [exact B1 | ]. constructor; [ | constructor].
              unfold BtProofs2.bounds, mincap in *. lia.
           ++ rewrite app_length. cbn [length]. lia.
        -- replace ((m - 1 + o) / 2 <? m - 1) with false by (clear -Ho HmM; lia).
           eexists. split; [reflexivity | ]. apply Top; try easy.
           ++ rewrite sum_app, !sum_cons. cbn [list_sum fold_right]. clear -L1 Ho HmM Bo Hm3. lia.
           ++ intros _. apply Forall_app. split; [exact B1 | ].
              constructor; [ | constructor; [ | constructor] ]; unfold BtProofs2.bounds, mincap in *; clear -Bo Ho HM; lia.
           ++ rewrite !app_length. cbn [length]. lia.
      * replace (S (length a) <? length (a ++ m - 1 :: o :: b)) with true
          by (rewrite app_length; cbn [length]; lia).
        cbn [andb]. rewrite nchild_app2, firstn_mid, skipn_mid2.
        inversion B3 as [ | ? ? Bo B3']; subst. unfold BtProofs2.bounds in Bo.
        rewrite sum_cons in L1. cbn [length] in *.
        destruct (Nat.leb_spec o (M / 2)) as [Ho | Ho].
        -- apply Rec.
           ++ rewrite sum_app, sum_cons. lia.
           ++ apply Forall_app. split; [exact B1 | ]. constructor; [ | exact B3'].
              unfold BtProofs2.bounds, mincap in *. lia.
           ++ rewrite app_length. cbn [length]. lia.
        -- assert (Bal : exists lv', (if (m - 1 + o) / 2 <? m - 1 then Err UB else
               Ok (rev (g1 :: rest) ++ (a ++ (m - 1 + ((m - 1 + o) / 2 - (m - 1))) ::
                    (o - ((m - 1 + o) / 2 - (m - 1))) :: b) :: bel)) = Ok lv' /\ lvok (rev lv') N).
           { replace ((m - 1 + o) / 2 <? m - 1) with false by (clear -Ho HmM; lia).
             eexists. split; [reflexivity | ]. apply Top; try easy.
             - rewrite sum_app, !sum_cons. clear -L1 Ho HmM Bo Hm3. lia.
             - intros _. apply Forall_app. split; [exact B1 | ].
               constructor; [ | constructor; [ | exact B3'] ]; unfold BtProofs2.bounds, mincap in *; clear -Bo Ho HM; lia.
             - rewrite !app_length. cbn [length]. lia. }
           destruct (0 <? length a) eqn:E0; cbn [andb]; [ | exact Bal].
           destruct (exists_last (l := a)) as (a' & o' & ->); [intros -> ; cbn in E0; lia | ].
           rewrite app_length in *. cbn [length] in *.
           replace (length a' + 1 - 1) with (length a') by lia.
           replace (nchild ((a' ++ [o']) ++ m - 1 :: o :: b) (length a')) with o'
             by (rewrite <- app_assoc; cbn [app]; now rewrite nchild_mid).
           apply Forall_app in B1 as (B1 & B4). inversion B4 as [ | ? ? Bo' _]; subst. unfold BtProofs2.bounds in Bo'.
           destruct (Nat.leb_spec o' (M / 2)) as [Ho' | Ho']; [ | exact Bal].
           rewrite <- app_assoc. cbn [app].
           rewrite firstn_mid. replace (S (length a' + 1)) with (S (S (length a'))) by lia. rewrite skipn_mid2.
           rewrite sum_app, sum_cons in L1. cbn [list_sum fold_right] in L1.
           apply Rec.
           ++ rewrite sum_app, !sum_cons. lia.
           ++ apply Forall_app. split; [exact B1 | ]. constructor; [ | exact B3].
              unfold BtProofs2.bounds, mincap in *. lia.
           ++ rewrite app_length. cbn [length]. lia.
Qed.

End Up.
