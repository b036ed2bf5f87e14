From Verif Require Import Bytes Outcome PhysModel PhysSpec BlockModel BlockSpec BlockProofs SegModel SegSpec SegProofs SegCutModel SegCutSpec.
From Coq Require Import ZArith Lia Sorting.Permutation.

(** * Collections *)
Lemma below_perm l1 l1' l2 l2' : Permutation l1 l1' -> Permutation l2 l2' -> below l1 l2 -> below l1' l2'.
Proof. intros P1 P2 H e e' I I'. apply H; eapply Permutation_in; try eassumption; apply Permutation_sym; trivial. Qed.

Lemma below_app_l l1 l2 l : below (l1 ++ l2) l <-> below l1 l /\ below l2 l.
Proof.
  split; [intros H; split; intros e e' I I'; apply H; trivial; apply in_or_app; auto|].
  intros [H1 H2] e e' I I'. apply in_app_or in I. destruct I; [apply H1|apply H2]; trivial.
Qed.
Lemma below_app_r l1 l2 l : below l (l1 ++ l2) <-> below l l1 /\ below l l2.
Proof.
  split; [intros H; split; intros e e' I I'; apply H; trivial; apply in_or_app; auto|].
  intros [H1 H2] e e' I I'. apply in_app_or in I'. destruct I'; [apply H1|apply H2]; trivial.
Qed.

Lemma below_apart l1 l2 : below l1 l2 -> forall a b, In a (map fst l1) -> In b (map fst l2) -> equal a b = false.
Proof.
  intros H a b I I'. apply in_map_iff in I, I'. destruct I as (e & <- & I), I' as (e' & <- & I').
  apply (not_equal_less _ _ (H e e' I I')).
Qed.
Lemma kinds_app l1 l2 : below l1 l2 -> kinds (l1 ++ l2) = kinds l1 + kinds l2.
Proof. intros H. unfold kinds. rewrite map_app. apply distinct_app, below_apart, H. Qed.
Lemma kinds_perm r l l' : Forall (fun e => exact r (fst e)) l -> Permutation l l' -> kinds l = kinds l'.
Proof.
  intros F P. unfold kinds. apply (distinct_perm r); [|apply Permutation_map, P].
  apply Forall_forall. intros k I. apply in_map_iff in I. destruct I as (e & <- & I). rewrite Forall_forall in F. auto.
Qed.

(** * Blocks without common keys *)
Definition fine (r : regime) (b : block) : Prop := valid r b /\ items b <> [] /\ bfull b = default_size.
Record good (r : regime) (bs : list block) : Prop := {
  good_each : Forall (fine r) bs;
  good_order : ForallOrdPairs (fun b b' => below (items b) (items b')) bs }.

Lemma good_app r A B : good r (A ++ B) <-> good r A /\ good r B /\ below (its A) (its B).
Proof.
  split.
  - intros [E O]. rewrite Forall_app in E. apply fop_app in O. destruct E as [E1 E2], O as (O1 & O2 & O3).
    split; [constructor; trivial|]. split; [constructor; trivial|].
    intros e e' I I'. apply its_in in I, I'. destruct I as (b & Ib & I), I' as (b' & Ib' & I'). apply (O3 b b'); trivial.
  - intros ([E1 O1] & [E2 O2] & H). constructor; [apply Forall_app; auto|]. apply fop_app. split; [trivial|]. split; [trivial|].
    intros b b' Ib Ib' e e' I I'. apply H; apply its_in; eauto.
Qed.
Lemma good_one r b : good r [b] <-> fine r b.
Proof.
  split; [intros [E _]; inversion_clear E; trivial|]. intros H. constructor; constructor; trivial; constructor.
Qed.

Lemma its_one b : its [b] = items b.
Proof. rewrite its_cons. apply app_nil_r. Qed.

Lemma good_exact r bs : good r bs -> Forall (fun e => exact r (fst e)) (its bs).
Proof.
  intros [E _]. apply Forall_forall. intros e I. apply its_in in I. destruct I as (b & Ib & I). rewrite Forall_forall in E.
  destruct (E b Ib) as (V & _). apply (items_exact r b e V I).
Qed.

Lemma good_blocks r bs X : blocks_ok r bs -> good r X -> Permutation (its X) (its bs) -> blocks_ok r X.
Proof.
  intros [E O On Sm] [E' O'] P. constructor; trivial.
  - revert O'. apply fop_impl. intros b b' Ib Ib' H e e' I I'. rewrite Forall_forall in E'.
    destruct (E' b Ib) as (V & _), (E' b' Ib') as (V' & _).
    apply (less_asym r (fst e') (fst e)); [apply (items_exact r b e' V I')|apply (items_exact r b' e V' I)|apply H; trivial].
  - eapply once_perm; [|exact On]. apply Permutation_sym, P.
  - eapply Permutation_Forall; [|exact Sm]. apply Permutation_sym, P.
Qed.

Lemma blocks_sub r X Y : blocks_ok r (X ++ Y) -> blocks_ok r X /\ blocks_ok r Y.
Proof.
  intros [E O On Sm]. rewrite its_app in *. rewrite Forall_app in E, Sm. apply fop_app in O, On.
  split; constructor; tauto.
Qed.

Lemma unshared_good r t bs : Forall2 node_ok (nodes t) bs -> blocks_ok r bs -> unshared t -> good r bs.
Proof.
  intros H [E O On Sm] U. unfold unshared in U. constructor; trivial. clear O On Sm. induction H as [|n b ns bs Hn H IH]; [constructor|].
  inversion_clear E as [|? ? Eb E']. inversion_clear U as [|? ? Un U']. constructor; [|auto]. clear IH U'.
  apply Forall_forall. intros b' Ib' e e' I I'.
  assert (exists n', In n' ns /\ node_ok n' b') as (n' & In' & Hn').
  { clear - H Ib'. induction H; [destruct Ib'|]. destruct Ib' as [->|Ib']; [eexists; split; [left; reflexivity|trivial]|].
    destruct (IHForall2 Ib') as (n' & Q & Hn). exists n'. split; [right|]; trivial. }
  rewrite Forall_forall in Un, E'. specialize (Un n' In'). rewrite (node_max _ _ Hn), (node_min _ _ Hn') in Un.
  destruct Eb as (V & N & _), (E' b' Ib') as (V' & N' & _).
  destruct (bounds_spec r b V N) as ((x & Ix) & _ & B). destruct (bounds_spec r b' V' N') as (_ & (x' & Ix') & B').
  destruct (B e I) as [B1 _], (B' e' I') as [_ B2].
  pose proof (items_exact r b _ V I). pose proof (items_exact r b _ V Ix). pose proof (items_exact r b' _ V' I'). pose proof (items_exact r b' _ V' Ix').
  cbn [fst] in *.
  apply (less_le r _ (min_index b')); trivial. apply (le_less r _ (max_index b)); trivial.
Qed.

Lemma good_unshared r t bs : Forall2 node_ok (nodes t) bs -> good r bs -> unshared t.
Proof.
  intros H [E O]. unfold unshared. induction H as [|n b ns bs Hn H IH]; [constructor|].
  inversion_clear E as [|? ? Eb E']. inversion_clear O as [|? ? Ob O']. constructor; [|auto]. clear IH O'.
  apply Forall_forall. intros n' In'.
  assert (exists b', In b' bs /\ node_ok n' b') as (b' & Ib' & Hn').
  { clear - H In'. induction H; [destruct In'|]. destruct In' as [->|In']; [eexists; split; [left; reflexivity|trivial]|].
    destruct (IHForall2 In') as (b' & Q & Hn). exists b'. split; [right|]; trivial. }
  rewrite Forall_forall in Ob, E'. rewrite (node_max _ _ Hn), (node_min _ _ Hn').
  destruct Eb as (V & N & _), (E' b' Ib') as (V' & N' & _).
  destruct (bounds_spec r b V N) as ((x & Ix) & _ & B). destruct (bounds_spec r b' V' N') as (_ & (x' & Ix') & B').
  apply (Ob b' Ib' _ _ Ix Ix').
Qed.

(** * Nodes *)
Lemma touch_ok n b : node_ok n b -> node_ok (touch_node n) b.
Proof.
  intros [H1 H2 H3 H4]. unfold touch_node. destruct (nblk n) eqn:E; constructor; cbn; rewrite ?E; auto.
  intros [Q|Q]; discriminate Q.
Qed.
Lemma touch_all l bs : Forall2 node_ok l bs -> Forall2 node_ok (map touch_node l) bs.
Proof. intros H. induction H; [constructor|]. constructor; trivial. apply touch_ok. trivial. Qed.

Lemma new_node_ok b : node_ok (new_node b) b.
Proof. constructor; cbn; auto. intros [Q|Q]; discriminate Q. Qed.
Lemma new_nodes_ok bs : Forall2 node_ok (map new_node bs) bs.
Proof. induction bs; constructor; trivial. apply new_node_ok. Qed.

Lemma bounds_update_spec l X b b' Z : Forall2 node_ok l (X ++ b :: Z) -> nblk (nth (length X) l (new_node b)) <> None ->
  Forall2 node_ok (map touch_node (update_bounds l (length X) b')) (X ++ b' :: Z) /\
  (Forall unsaved l -> Forall2 node_ok (update_bounds l (length X) b') (X ++ b' :: Z)).
Proof.
  intros H Ld. destruct (forall2_split _ _ _ _ H) as (l1 & l2 & -> & H1 & H2 & L). inversion H2 as [|n b0 ns bs Hn Hz]; subst.
  unfold update_bounds. rewrite <- L, nth_error_mid, set_nth_app. split.
  - rewrite map_app. cbn [map]. apply forall2_app; [apply touch_all; trivial|]. constructor; [|apply touch_all; trivial].
    constructor; cbn; auto. intros [Q|Q]; discriminate Q.
  - intros F. rewrite Forall_app in F. destruct F as [_ F]. inversion_clear F as [|? ? [_ Fm] _].
    apply forall2_app; trivial. constructor; trivial. constructor; cbn; auto. rewrite Fm. intros [Q|Q]; discriminate Q.
Qed.

Lemma unsaved_memory l : Forall unsaved l -> memory l.
Proof. apply Forall_impl. intros n [H _]. exact H. Qed.

(** After loading, the block is in memory. *)
Lemma loaded l i b l' d : load_at l i = Ok (b, l') -> nblk (nth i l' d) <> None.
Proof.
  unfold load_at. destruct (nth_error l i) as [n|] eqn:E; [|discriminate]. destruct (nblk n) as [b0|] eqn:Eb.
  - intros Q. injection Q as _ <-. rewrite (nth_error_nth _ _ _ E). congruence.
  - destruct (ndisk n) as [dd|]; [|discriminate]. destruct (restore_block dd); [|discriminate]. cbn [rbind]. intros Q. injection Q as _ <-.
    apply nth_error_split in E. destruct E as (l1 & l2 & -> & <-). rewrite set_nth_app, app_nth2, Nat.sub_diag by lia. cbn. discriminate.
Qed.

(** * Counters *)
Lemma buniq_small r b : valid r b -> (0 <= buniq b < 2 ^ 64)%Z /\ buniq b = Z.of_nat (kinds (items b)).
Proof.
  intros V. pose proof (valid_uniq _ _ V) as U. pose proof (valid_bound r b V) as B. pose proof (distinct_le (map fst (items b))) as D.
  rewrite map_length in D. unfold items in D at 2. rewrite map_length in D. split; [|exact U]. rewrite U. lia.
Qed.
Lemma bcount_len r b : valid r b -> bcount b = Z.of_nat (length (items b)).
Proof. intros V. rewrite (valid_count _ _ V). unfold items. rewrite map_length. reflexivity. Qed.
Lemma u64_small z : (0 <= z < 2 ^ 64)%Z -> u64 z = z.
Proof. intros H. unfold u64. apply Z.mod_small, H. Qed.
Lemma u64_addr a b : u64 (a + u64 b) = u64 (a + b).
Proof. rewrite Z.add_comm, u64_add, Z.add_comm. reflexivity. Qed.
Lemma u64_subr a b : u64 (a - u64 b) = u64 (a - b).
Proof. unfold u64. rewrite Zminus_mod_idemp_r. reflexivity. Qed.

Lemma prev_not (prev : pval) bs b k : (forall e, In e (its bs) -> equal prev (fst e) = false) -> In b bs ->
  (exists x, In (k, x) (items b)) -> equal prev k = false.
Proof. intros H Ib (x & I). apply (H (k, x)). apply its_in. eauto. Qed.

(** * Taking from the end *)
Lemma take_high_spec r bs : forall src dst prev want,
  Forall2 node_ok (nodes src) bs -> good r bs -> (forall e, In e (its bs) -> equal prev (fst e) = false) ->
  (0 <= want < Z.of_nat (kinds (its bs)))%Z ->
  exists X Y src' dst', take_high (length bs) prev want src dst = Ok (src', dst') /\
    good r (X ++ Y) /\ Permutation (its (X ++ Y)) (its bs) /\ Z.of_nat (kinds (its Y)) = want /\
    Forall2 node_ok (map touch_node (nodes src')) X /\ (Forall unsaved (nodes src) -> Forall2 node_ok (nodes src') X) /\
    nodes dst' = map new_node Y ++ nodes dst /\
    (forall a, icount src = u64 a -> icount src' = u64 (a - Z.of_nat (length (its Y)))) /\
    (forall a, ucount src = u64 a -> ucount src' = u64 (a - want)) /\
    (forall a, icount dst = u64 a -> icount dst' = u64 (a + Z.of_nat (length (its Y)))) /\
    (forall a, ucount dst = u64 a -> ucount dst' = u64 (a + want)).
Proof.
  induction bs as [|b bs IH] using rev_ind; intros src dst prev want H G Hp Hw.
  { cbn in Hw. lia. }
  apply good_app in G. destruct G as (G & Gb & Bl). pose proof Gb as Gb'. apply good_one in Gb'. destruct Gb' as (V & Ne & Bf).
  rewrite its_one in Bl.
  destruct (load_spec r (nodes src) bs b [] H V) as (l' & El & Hl & Ll & Ml).
  destruct (bounds_spec r b V Ne) as (Imax & Imin & _).
  destruct (buniq_small r b V) as (Us & Uk). pose proof (bcount_len r b V) as Cb.
  assert (Pm : equal prev (max_index b) = false) by (apply (prev_not prev (bs ++ [b]) b); trivial; apply in_or_app; right; left; reflexivity).
  assert (Pn : equal prev (min_index b) = false) by (apply (prev_not prev (bs ++ [b]) b); trivial; apply in_or_app; right; left; reflexivity).
  assert (Kb : kinds (its (bs ++ [b])) = kinds (its bs) + kinds (items b)).
  { rewrite its_app, its_one. apply kinds_app, Bl. }
  rewrite app_length. cbn [length]. rewrite Nat.add_1_r. cbn [take_high]. rewrite El. cbn [rbind]. rewrite Pm, Pn. cbn [one_if].
  rewrite Z.sub_0_r, Z.add_0_r, (u64_small _ Us).
  destruct (Z.leb_spec (buniq b) want) as [Le|Gt].
  - (* the whole block *)
    set (src1 := {| nodes := erase (length bs) (length bs + 1) l'; icount := u64 (icount src - bcount b); ucount := u64 (ucount src - buniq b) |}).
    set (dst1 := {| nodes := new_node b :: nodes dst; icount := u64 (icount dst + bcount b); ucount := u64 (ucount dst + buniq b) |}).
    destruct (erase_spec l' bs [b] [] Hl) as (He & _). rewrite app_nil_r in He. cbn [length] in He.
    assert (Hp1 : forall e, In e (its bs) -> equal (min_index b) (fst e) = false).
    { intros e I. destruct Imin as (x & Ix). rewrite equal_sym. apply (not_equal_less (fst e) (min_index b)), (Bl e _ I Ix). }
    assert (Hw1 : (0 <= want - buniq b < Z.of_nat (kinds (its bs)))%Z) by lia.
    destruct (IH src1 dst1 (min_index b) (want - buniq b)%Z He G Hp1 Hw1) as (X & Y & src' & dst' & E & GXY & P & Kw & Ht & Hu & Ed & C1 & C2 & C3 & C4).
    exists X, (Y ++ [b]), src', dst'. split; [exact E|].
    assert (Bl' : below (its (X ++ Y)) (items b)) by (eapply below_perm; [apply Permutation_sym, P|reflexivity|exact Bl]).
    split. { rewrite app_assoc. apply good_app. rewrite its_one. auto. }
    split. { rewrite app_assoc, (its_app (X ++ Y)), (its_app bs). apply Permutation_app; [exact P|reflexivity]. }
    rewrite !its_app, !its_one.
    split. { rewrite kinds_app; [lia|]. rewrite its_app in Bl'. apply below_app_l in Bl'. tauto. }
    split; [exact Ht|]. split.
    { intros Un. apply Hu. cbn [nodes src1]. rewrite (Ml (unsaved_memory _ Un)). unfold erase. apply Forall_app.
      split; [eapply incl_Forall; [|exact Un]; intros y Q; rewrite <- (firstn_skipn (length bs) (nodes src)); apply in_or_app; auto|].
      eapply incl_Forall; [|exact Un]. intros y Q. rewrite <- (firstn_skipn (length bs + 1) (nodes src)). apply in_or_app; auto. }
    split. { rewrite Ed. cbn [nodes dst1]. rewrite map_app, <- app_assoc. reflexivity. }
    rewrite app_length.
    split. { intros a Ea. rewrite (C1 (a - bcount b)%Z); [f_equal; lia|]. cbn [icount src1]. rewrite Ea, u64_sub. reflexivity. }
    split. { intros a Ea. rewrite (C2 (a - buniq b)%Z); [f_equal; lia|]. cbn [ucount src1]. rewrite Ea, u64_sub. reflexivity. }
    split. { intros a Ea. rewrite (C3 (a + bcount b)%Z); [f_equal; lia|]. cbn [icount dst1]. rewrite Ea, u64_add. reflexivity. }
    { intros a Ea. rewrite (C4 (a + buniq b)%Z); [f_equal; lia|]. cbn [ucount dst1]. rewrite Ea, u64_add. reflexivity. }
  - rewrite (u64_small want) by lia. destruct (Z.eqb_spec want 0) as [W0|W0]; cbn [orb].
    + (* nothing more *)
      exists (bs ++ [b]), []. eexists. eexists. split; [reflexivity|]. rewrite app_nil_r. cbn [nodes icount ucount its map concat].
      split; [apply good_app; rewrite its_one; auto|]. split; [reflexivity|]. split; [cbn; lia|]. split; [apply touch_all, Hl|].
      split; [intros Un; exact Hl|]. split; [reflexivity|]. cbn [length]. rewrite W0.
      split; [|split; [|split]]; intros a Ea; rewrite Ea; f_equal; lia.
    + destruct (Z.eqb_spec want (buniq b)) as [W1|W1]; [lia|]. cbn [orb].
      destruct (split_uniques_spec r b (Z.to_nat want) V) as (nb & b1 & Es & Ps & Ks & Bs & Vn & V1 & Fn & F1).
      { unfold kinds in Uk. lia. }
      rewrite Es. cbn [rbind].
      destruct (bounds_update_spec l' bs b b1 [] Hl) as (Hu1 & Hu2); [apply (loaded _ _ _ _ _ El)|].
      assert (Bs' : below (items b1) (items nb)) by (intros e e' I I'; apply Bs; trivial).
      assert (Kn : kinds (items nb) = Z.to_nat want) by exact Ks.
      assert (Kt : kinds (items b1) + kinds (items nb) = kinds (items b)).
      { rewrite <- (kinds_app _ _ Bs'). apply (kinds_perm r).
        - apply Forall_app. split; apply Forall_forall; intros e I; [apply (items_exact r b1)|apply (items_exact r nb)]; trivial.
        - rewrite Permutation_app_comm. exact Ps. }
      assert (Nn : items nb <> []) by (intros Q; rewrite Q in Kn; cbn in Kn; lia).
      assert (N1 : items b1 <> []) by (intros Q; rewrite Q in Kt; cbn in Kt; lia).
      assert (Mv : (bcount b - bcount b1)%Z = Z.of_nat (length (items nb))).
      { rewrite Cb, (bcount_len r b1 V1). apply Permutation_length in Ps. rewrite app_length in Ps. lia. }
      rewrite Mv. exists (bs ++ [b1]), [nb]. eexists. eexists. split; [reflexivity|]. cbn [nodes icount ucount].
      assert (Bl1 : below (its bs) (items b1 ++ items nb)).
      { eapply below_perm; [reflexivity| |exact Bl]. rewrite Permutation_app_comm. apply Permutation_sym, Ps. }
      apply below_app_r in Bl1. destruct Bl1 as [Bl1 Bl2].
      split.
      { apply good_app. rewrite its_app, !its_one. split; [apply good_app; rewrite its_one; split; [exact G|split; [|exact Bl1]]|split].
        - apply good_one. split; [exact V1|split; [exact N1|congruence]].
        - apply good_one. split; [exact Vn|split; [exact Nn|congruence]].
        - apply below_app_l. split; trivial. }
      split. { rewrite !its_app, !its_one, <- app_assoc. apply Permutation_app_head. rewrite Permutation_app_comm. exact Ps. }
      rewrite its_one. split; [lia|]. split; [exact Hu1|]. split.
      { intros Un. apply Hu2. rewrite (Ml (unsaved_memory _ Un)). exact Un. }
      split; [reflexivity|].
      split; [|split; [|split]]; intros a Ea; rewrite Ea, ?u64_addr, ?u64_subr, ?u64_add, ?u64_sub; reflexivity.
Qed.

(** * Taking from the beginning *)
Lemma take_low_spec r bs : forall src dst prev want,
  Forall2 node_ok (nodes src) bs -> good r bs -> (forall e, In e (its bs) -> equal prev (fst e) = false) ->
  (0 <= want < Z.of_nat (kinds (its bs)))%Z ->
  exists X Y src' dst', take_low (length bs) prev want src dst = Ok (src', dst') /\
    good r (X ++ Y) /\ Permutation (its (X ++ Y)) (its bs) /\ Z.of_nat (kinds (its X)) = want /\
    Forall2 node_ok (nodes src') Y /\ nodes dst' = nodes dst ++ map new_node X /\
    (forall a, icount src = u64 a -> icount src' = u64 (a - Z.of_nat (length (its X)))) /\
    (forall a, ucount src = u64 a -> ucount src' = u64 (a - want)) /\
    (forall a, icount dst = u64 a -> icount dst' = u64 (a + Z.of_nat (length (its X)))) /\
    (forall a, ucount dst = u64 a -> ucount dst' = u64 (a + want)).
Proof.
  induction bs as [|b bs IH]; intros src dst prev want H G Hp Hw.
  { cbn in Hw. lia. }
  change (b :: bs) with ([b] ++ bs) in G. apply good_app in G. destruct G as (Gb & G & Bl). pose proof Gb as Gb'. apply good_one in Gb'. destruct Gb' as (V & Ne & Bf).
  rewrite its_one in Bl.
  destruct (load_spec r (nodes src) [] b bs H V) as (l' & El & Hl & Ll & Ml). cbn [length app] in El, Hl.
  destruct (bounds_spec r b V Ne) as (Imax & Imin & _).
  destruct (buniq_small r b V) as (Us & Uk). pose proof (bcount_len r b V) as Cb.
  assert (Pn : equal prev (min_index b) = false) by (apply (prev_not prev (b :: bs) b); trivial; left; reflexivity).
  assert (Kb : kinds (its (b :: bs)) = kinds (items b) + kinds (its bs)) by (rewrite its_cons; apply kinds_app, Bl).
  cbn [length take_low]. rewrite El. cbn [rbind]. rewrite Pn. cbn [one_if].
  rewrite Z.sub_0_r, (u64_small _ Us).
  destruct (Z.leb_spec (buniq b) want) as [Le|Gt].
  - set (src1 := {| nodes := erase 0 1 l'; icount := u64 (icount src - bcount b); ucount := u64 (ucount src - buniq b) |}).
    set (dst1 := {| nodes := nodes dst ++ [new_node b]; icount := u64 (icount dst + bcount b); ucount := u64 (ucount dst + buniq b) |}).
    destruct (erase_spec l' [] [b] bs Hl) as (He & _). cbn [length app Nat.add] in He.
    assert (Hp1 : forall e, In e (its bs) -> equal (max_index b) (fst e) = false).
    { intros e I. destruct Imax as (x & Ix). apply (not_equal_less (max_index b) (fst e)), (Bl _ e Ix I). }
    assert (Hw1 : (0 <= want - buniq b < Z.of_nat (kinds (its bs)))%Z) by lia.
    destruct (IH src1 dst1 (max_index b) (want - buniq b)%Z He G Hp1 Hw1) as (X & Y & src' & dst' & E & GXY & P & Kw & Ht & Ed & C1 & C2 & C3 & C4).
    exists (b :: X), Y, src', dst'. split; [exact E|].
    assert (Bl' : below (items b) (its (X ++ Y))) by (eapply below_perm; [reflexivity|apply Permutation_sym, P|exact Bl]).
    split. { change ((b :: X) ++ Y) with ([b] ++ (X ++ Y)). apply good_app. rewrite its_one. auto. }
    split. { cbn [app]. rewrite !its_cons. apply Permutation_app_head, P. }
    rewrite !its_cons.
    split. { rewrite kinds_app; [lia|]. rewrite its_app in Bl'. apply below_app_r in Bl'. tauto. }
    split; [exact Ht|].
    split. { rewrite Ed. cbn [nodes dst1 map]. rewrite <- app_assoc. reflexivity. }
    rewrite app_length.
    split. { intros a Ea. rewrite (C1 (a - bcount b)%Z); [f_equal; lia|]. cbn [icount src1]. rewrite Ea, u64_sub. reflexivity. }
    split. { intros a Ea. rewrite (C2 (a - buniq b)%Z); [f_equal; lia|]. cbn [ucount src1]. rewrite Ea, u64_sub. reflexivity. }
    split. { intros a Ea. rewrite (C3 (a + bcount b)%Z); [f_equal; lia|]. cbn [icount dst1]. rewrite Ea, u64_add. reflexivity. }
    { intros a Ea. rewrite (C4 (a + buniq b)%Z); [f_equal; lia|]. cbn [ucount dst1]. rewrite Ea, u64_add. reflexivity. }
  - destruct (Z.eqb_spec (buniq b - want) 0) as [W0|W0]; [lia|]. cbn [orb].
    destruct (Z.eqb_spec (buniq b - want) (buniq b)) as [W1|W1]; cbn [orb].
    + exists [], (b :: bs). eexists. eexists. split; [reflexivity|]. cbn [nodes icount ucount its map concat app].
      assert (want = 0%Z) by lia. subst want.
      split; [change (b :: bs) with ([b] ++ bs); apply good_app; rewrite its_one; auto|]. split; [reflexivity|]. split; [reflexivity|]. split; [exact Hl|].
      split; [rewrite app_nil_r; reflexivity|]. cbn [length].
      split; [|split; [|split]]; intros a Ea; rewrite Ea; f_equal; lia.
    + destruct (split_uniques_spec r b (Z.to_nat (buniq b - want)) V) as (nb & b1 & Es & Ps & Ks & Bs & Vn & V1 & Fn & F1).
      { unfold kinds in Uk. lia. }
      rewrite Es. cbn [rbind].
      destruct (update_spec l' [] b nb bs Hl) as (Hu1 & _). cbn [length app] in Hu1.
      assert (Bs' : below (items b1) (items nb)) by (intros e e' I I'; apply Bs; trivial).
      assert (Kn : kinds (items nb) = Z.to_nat (buniq b - want)) by exact Ks.
      assert (Kt : kinds (items b1) + kinds (items nb) = kinds (items b)).
      { rewrite <- (kinds_app _ _ Bs'). apply (kinds_perm r).
        - apply Forall_app. split; apply Forall_forall; intros e I; [apply (items_exact r b1)|apply (items_exact r nb)]; trivial.
        - rewrite Permutation_app_comm. exact Ps. }
      assert (Nn : items nb <> []) by (intros Q; rewrite Q in Kn; cbn in Kn; lia).
      assert (N1 : items b1 <> []) by (intros Q; rewrite Q in Kt; cbn in Kt; lia).
      assert (Mv : (bcount b - bcount nb)%Z = Z.of_nat (length (items b1))).
      { rewrite Cb, (bcount_len r nb Vn). apply Permutation_length in Ps. rewrite app_length in Ps. lia. }
      rewrite Mv. exists [b1], (nb :: bs). eexists. eexists. split; [reflexivity|]. cbn [nodes icount ucount].
      assert (Bl1 : below (items b1 ++ items nb) (its bs)).
      { eapply below_perm; [|reflexivity|exact Bl]. rewrite Permutation_app_comm. apply Permutation_sym, Ps. }
      apply below_app_l in Bl1. destruct Bl1 as [Bl1 Bl2].
      split.
      { apply good_app. rewrite its_one, its_cons. split; [|split; [change (nb :: bs) with ([nb] ++ bs); apply good_app; rewrite its_one; split; [|split; [exact G|exact Bl2]]|]].
        - apply good_one. split; [exact V1|split; [exact N1|congruence]].
        - apply good_one. split; [exact Vn|split; [exact Nn|congruence]].
        - apply below_app_r. split; trivial. }
      split. { cbn [app]. rewrite !its_cons, app_assoc. apply Permutation_app_tail. rewrite Permutation_app_comm. exact Ps. }
      rewrite its_one. split; [lia|]. split; [exact Hu1|].
      split; [reflexivity|].
      split; [|split; [|split]]; intros a Ea; rewrite Ea, ?u64_addr, ?u64_subr, ?u64_add, ?u64_sub; reflexivity.
Qed.
