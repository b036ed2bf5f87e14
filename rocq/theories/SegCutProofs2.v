From Verif Require Import Bytes Outcome PhysModel PhysSpec BlockModel BlockSpec BlockProofs SegModel SegSpec SegProofs SegCutModel SegCutSpec SegCutProofs.
From Coq Require Import ZArith Lia Sorting.Permutation Sorting.Sorted.

(** * Trees *)
Lemma touch_bounds n : nmin (touch_node n) = nmin n /\ nmax (touch_node n) = nmax n.
Proof. unfold touch_node. destruct (nblk n); split; reflexivity. Qed.

Lemma unshared_touch t : unshared (in_memory t) <-> unshared t.
Proof.
  unfold unshared, in_memory. cbn [nodes]. induction (nodes t) as [|n l IH]; [split; constructor|]. cbn [map].
  split; intros H; inversion_clear H as [|? ? F H']; (constructor; [|apply IH, H']); apply Forall_forall; intros m I; rewrite Forall_forall in F.
  - specialize (F (touch_node m) (in_map _ _ _ I)). rewrite (proj2 (touch_bounds n)), (proj1 (touch_bounds m)) in F. exact F.
  - apply in_map_iff in I. destruct I as (m' & <- & I). rewrite (proj2 (touch_bounds n)), (proj1 (touch_bounds m')). apply F, I.
Qed.

Lemma good_ok r bs : good r bs -> Forall (fun e => quarter default_size (snd e)) (its bs) -> blocks_ok r bs.
Proof.
  intros G Sm. pose proof (good_each _ _ G) as E. constructor; trivial.
  - pose proof (good_order _ _ G) as O. revert O. apply fop_impl. intros b b' Ib Ib' H e e' I I'. rewrite Forall_forall in E.
    destruct (E b Ib) as (V & _), (E b' Ib') as (V' & _).
    apply (less_asym r (fst e') (fst e)); [apply (items_exact r b e' V I')|apply (items_exact r b' e V' I)|apply H; trivial].
  - clear Sm. induction bs as [|b bs IH]; [constructor|]. change (b :: bs) with ([b] ++ bs) in G. apply good_app in G. destruct G as (Gb & G & Bl).
    inversion_clear E as [|? ? (V & _) E']. rewrite its_cons. apply fop_app. split; [apply (valid_once _ _ V)|]. split; [apply IH; trivial|].
    intros e e' I I'. unfold is_entry. rewrite its_one in Bl.
    rewrite (proj1 (not_equal_less _ _ (Bl e e' I I'))). reflexivity.
Qed.

Lemma holds_blocks r t X : Forall2 node_ok (nodes t) X -> blocks_ok r X -> icount t = u64 (Z.of_nat (length (its X))) ->
  tree_holds r t (its X).
Proof. intros H B C. exists X. auto. Qed.

Lemma null_equal k : k <> PNull -> equal PNull k = false.
Proof. intros N. destruct k; try reflexivity. contradiction. Qed.

Lemma small_perm l l' : Permutation l l' -> Forall (fun e : pval * list byte => quarter default_size (snd e)) l -> Forall (fun e => quarter default_size (snd e)) l'.
Proof. intros P F. eapply Permutation_Forall; eassumption. Qed.

Lemma split_tree r t l : tree_holds r t l -> unshared t -> keys_counted t l -> no_null l -> l <> [] ->
  exists t1 t2 l1 l2, seg_split t = Ok (t1, t2) /\ Permutation (l1 ++ l2) l /\ below l1 l2 /\
    kinds l2 = kinds l / 2 /\ kinds l1 = kinds l - kinds l / 2 /\
    tree_holds r (in_memory t1) l1 /\ tree_holds r t2 l2 /\ keys_counted t1 l1 /\ keys_counted t2 l2 /\ unshared t1 /\ unshared t2 /\
    (Forall unsaved (nodes t) -> tree_holds r t1 l1).
Proof.
  intros (bs & H & B & P & Ic) U (Kc & Kl) Nn Ne.
  pose proof (unshared_good r t bs H B U) as G.
  pose proof (good_exact r bs G) as Ex.
  assert (Kp : kinds (its bs) = kinds l) by (apply (kinds_perm r); trivial).
  assert (Kpos : 0 < kinds l).
  { destruct l as [|[k x] l]; [contradiction|]. unfold kinds. cbn [map fst]. pose proof (distinct_pos k (map fst l)). lia. }
  assert (W : (ucount t / 2)%Z = Z.of_nat (kinds l / 2)) by (rewrite Kc, Nat2Z.inj_div; reflexivity).
  assert (Hlt : kinds l / 2 < kinds l) by (apply Nat.div_lt; lia).
  destruct (take_high_spec r bs t empty_tree PNull (ucount t / 2)%Z H G) as (X & Y & t1 & t2 & E & GXY & PXY & Kw & Ht & Hu & Ed & C1 & C2 & C3 & C4).
  { intros e I. apply null_equal, Nn. eapply Permutation_in; eassumption. }
  { rewrite W, Kp. lia. }
  exists t1, t2, (its X), (its Y). unfold seg_split. rewrite (forall2_length _ _ _ H). split; [exact E|].
  rewrite its_app in PXY. assert (PL : Permutation (its X ++ its Y) l) by (rewrite PXY; exact P).
  split; [exact PL|].
  pose proof (proj1 (good_app _ _ _) GXY) as (GX & GY & Bl). split; [exact Bl|].
  assert (KY : kinds (its Y) = kinds l / 2) by lia.
  assert (KX : kinds (its X) = kinds l - kinds l / 2).
  { pose proof (kinds_app _ _ Bl) as Q. rewrite (kinds_perm r (its X ++ its Y) l) in Q; [lia| |exact PL].
    apply Forall_app. split; [apply (good_exact r X GX)|apply (good_exact r Y GY)]. }
  split; [exact KY|]. split; [exact KX|].
  pose proof (small_perm _ _ (Permutation_sym PXY) (each_small _ _ B)) as Sm. apply Forall_app in Sm. destruct Sm as [SX SY].
  assert (Len : length l = length (its X) + length (its Y)) by (rewrite <- (Permutation_length PL), app_length; reflexivity).
  assert (I1 : icount t1 = u64 (Z.of_nat (length (its X)))) by (rewrite (C1 _ Ic); f_equal; lia).
  assert (I2 : icount t2 = u64 (Z.of_nat (length (its Y)))) by (rewrite (C3 0%Z eq_refl); f_equal; lia).
  cbn [nodes empty_tree] in Ed. rewrite app_nil_r in Ed.
  assert (H2 : Forall2 node_ok (nodes t2) Y) by (rewrite Ed; apply new_nodes_ok).
  split; [apply (holds_blocks r (in_memory t1) X); [exact Ht|apply good_ok; trivial|exact I1]|].
  split; [apply holds_blocks; [exact H2|apply good_ok; trivial|exact I2]|].
  split. { split; [|lia]. rewrite (C2 (ucount t)); [|symmetry; apply u64_small; lia]. rewrite u64_small; lia. }
  split. { split; [|lia]. rewrite (C4 0%Z eq_refl). rewrite u64_small; lia. }
  split; [apply unshared_touch, (good_unshared r (in_memory t1) X Ht GX)|].
  split; [apply (good_unshared r _ Y H2 GY)|].
  intros Un. apply holds_blocks; [apply Hu, Un|apply good_ok; trivial|exact I1].
Qed.

Lemma tree_bounds r t l : tree_holds r t l -> l <> [] ->
  (exists x, In (tree_min t, x) l) /\ (exists x, In (tree_max t, x) l).
Proof.
  intros (bs & H & B & P & _) Ne. unfold tree_min, tree_max.
  assert (Nb : bs <> []) by (intros ->; apply Ne; apply Permutation_nil in P; exact P).
  pose proof (each_valid _ _ B) as V. split.
  - destruct H as [|n b ns bs Hn H]; [contradiction|]. inversion_clear V as [|? ? (Vb & Nbb & _) _]. rewrite (node_min _ _ Hn).
    destruct (bounds_spec r b Vb Nbb) as (_ & (x & I) & _). exists x. eapply Permutation_in; [exact P|]. rewrite its_cons. apply in_or_app. auto.
  - destruct bs as [|b bs _] using rev_ind; [contradiction|]. apply Forall2_app_inv_r in H. destruct H as (l1 & l2 & H1 & H2 & E).
    inversion H2 as [|n ? ? ? Hn H3]; subst. inversion H3; subst. rewrite E, rev_app_distr. cbn [rev app].
    apply Forall_app in V. destruct V as [_ V]. inversion_clear V as [|? ? (Vb & Nbb & _) _]. rewrite (node_max _ _ Hn).
    destruct (bounds_spec r b Vb Nbb) as ((x & I) & _ & _). exists x. eapply Permutation_in; [exact P|]. rewrite its_app, its_one. apply in_or_app. auto.
Qed.

Lemma holds_exact r t l : tree_holds r t l -> Forall (fun e => exact r (fst e)) l.
Proof.
  intros (bs & H & B & P & _). apply Forall_forall. intros e I. apply (its_exact r bs e B). apply (Permutation_in _ (Permutation_sym P)), I.
Qed.

Lemma side r t o lt lo : tree_holds r t lt -> tree_holds r o lo -> lt <> [] -> lo <> [] ->
  (below lo lt -> greater (tree_min t) (tree_max o) = true) /\ (below lt lo -> greater (tree_min t) (tree_max o) = false).
Proof.
  intros Ht Ho N N'. destruct (tree_bounds r t lt Ht N) as ((x & I) & _), (tree_bounds r o lo Ho N') as (_ & (x' & I')).
  unfold greater. split; intros Bl.
  - apply (Bl _ _ I' I).
  - pose proof (holds_exact r t lt Ht) as F. pose proof (holds_exact r o lo Ho) as F'. rewrite Forall_forall in F, F'.
    apply (less_asym r _ _ (F _ I) (F' _ I') (Bl _ _ I I')).
Qed.

Lemma balance_tree r t o lt lo : tree_holds r t lt -> tree_holds r o lo -> unshared t -> unshared o ->
  keys_counted t lt -> keys_counted o lo -> no_null lo -> lt <> [] -> lo <> [] -> kinds lt <= kinds lo ->
  below lt lo \/ below lo lt ->
  exists t' o' lt' lo', seg_balance t o = Ok (t', o') /\ Permutation (lt' ++ lo') (lt ++ lo) /\ incl lt lt' /\
    (below lt lo -> below lt' lo') /\ (below lo lt -> below lo' lt') /\
    kinds lt' = (kinds lt + kinds lo) / 2 /\ kinds lo' = kinds lt + kinds lo - (kinds lt + kinds lo) / 2 /\
    tree_holds r t' lt' /\ tree_holds r (in_memory o') lo' /\ keys_counted t' lt' /\ keys_counted o' lo' /\ unshared t' /\ unshared o' /\
    (Forall unsaved (nodes o) \/ below lt lo -> tree_holds r o' lo').
Proof.
  intros Tt To U U' (Kc & Kl) (Kc' & Kl') Nn Ne Ne' Le Sd.
  destruct (side r t o lt lo Tt To Ne Ne') as [Sd1 Sd2].
  destruct Tt as (bt & H & B & P & Ic). destruct To as (bo & H' & B' & P' & Ic').
  pose proof (unshared_good r t bt H B U) as G. pose proof (unshared_good r o bo H' B' U') as G'.
  assert (Kp : kinds (its bt) = kinds lt) by (apply (kinds_perm r); [apply good_exact|]; trivial).
  assert (Kp' : kinds (its bo) = kinds lo) by (apply (kinds_perm r); [apply good_exact|]; trivial).
  assert (Kpos : 0 < kinds lo).
  { destruct lo as [|[k x] lo]; [contradiction|]. unfold kinds. cbn [map fst]. pose proof (distinct_pos k (map fst lo)). lia. }
  assert (Kpos' : 0 < kinds lt).
  { destruct lt as [|[k x] lt]; [contradiction|]. unfold kinds. cbn [map fst]. pose proof (distinct_pos k (map fst lt)). lia. }
  assert (Hd : kinds lt <= (kinds lt + kinds lo) / 2 < kinds lt + kinds lo).
  { split; [apply Nat.div_le_lower_bound; lia|apply Nat.div_lt; lia]. }
  set (D := (kinds lt + kinds lo) / 2) in *.
  assert (W : u64 (u64 (ucount t + ucount o) / 2 - ucount t) = Z.of_nat (D - kinds lt)).
  { rewrite Kc, Kc', (u64_small (_ + _)) by lia. rewrite <- Nat2Z.inj_add.
    change 2%Z with (Z.of_nat 2). rewrite <- Nat2Z.inj_div. fold D. rewrite u64_small; lia. }
  assert (Hp : forall e, In e (its bo) -> equal PNull (fst e) = false).
  { intros e I. apply null_equal, Nn. eapply Permutation_in; eassumption. }
  unfold seg_balance. rewrite W, (forall2_length _ _ _ H').
  assert (Uc : ucount t = u64 (ucount t)) by (symmetry; apply u64_small; lia).
  assert (Uc' : ucount o = u64 (ucount o)) by (symmetry; apply u64_small; lia).
  pose proof (each_small _ _ B) as St. pose proof (each_small _ _ B') as So.
  destruct Sd as [Bl|Bl].
  - rewrite (Sd2 Bl).
    destruct (take_low_spec r bo o t PNull (Z.of_nat (D - kinds lt)) H' G' Hp) as (X & Y & o' & t' & E & GXY & PXY & Kw & Ht & Ed & C1 & C2 & C3 & C4).
    { rewrite Kp'. lia. }
    rewrite E. cbn [rbind]. rewrite its_app in PXY.
    pose proof (proj1 (good_app _ _ _) GXY) as (GX & GY & BXY).
    pose proof (small_perm _ _ (Permutation_sym PXY) So) as Sm. apply Forall_app in Sm. destruct Sm as [SX SY].
    assert (Bl' : below (its bt) (its X ++ its Y)).
    { eapply below_perm; [apply Permutation_sym, P|apply Permutation_sym; rewrite PXY; exact P'|exact Bl]. }
    apply below_app_r in Bl'. destruct Bl' as [BX BY].
    assert (GT : good r (bt ++ X)) by (apply good_app; auto).
    assert (ST : Forall (fun e => quarter default_size (snd e)) (its (bt ++ X))) by (rewrite its_app; apply Forall_app; auto).
    assert (H1 : Forall2 node_ok (nodes t') (bt ++ X)) by (rewrite Ed; apply forall2_app; [exact H|apply new_nodes_ok]).
    assert (KX : kinds (its X) = D - kinds lt) by lia.
    assert (KY : kinds (its X) + kinds (its Y) = kinds lo).
    { rewrite <- (kinds_app _ _ BXY), <- Kp'. apply (kinds_perm r); [|exact PXY].
      apply Forall_app. split; [apply (good_exact r X GX)|apply (good_exact r Y GY)]. }
    assert (Len : length (its X) + length (its Y) = length lo) by (rewrite <- (Permutation_length P'), <- (Permutation_length PXY), app_length; reflexivity).
    pose proof (Permutation_length P) as Len'.
    assert (HY : tree_holds r o' (its Y)).
    { apply holds_blocks; [exact Ht|apply good_ok; trivial|]. rewrite (C1 _ Ic'). f_equal. lia. }
    assert (BlF : below lo lt -> False).
    { intros Q. destruct lt as [|e lt]; [contradiction|]. destruct lo as [|e' lo]; [contradiction|].
      pose proof (Q e' e (or_introl eq_refl) (or_introl eq_refl)) as Q1. pose proof (Bl e e' (or_introl eq_refl) (or_introl eq_refl)) as Q2.
      pose proof (good_exact r bt G) as F. pose proof (good_exact r bo G') as F'. rewrite Forall_forall in F, F'.
      assert (X1 : exact r (fst e)) by (apply F; eapply Permutation_in; [apply Permutation_sym, P|left; reflexivity]).
      assert (X2 : exact r (fst e')) by (apply F'; eapply Permutation_in; [apply Permutation_sym, P'|left; reflexivity]).
      rewrite (less_asym r _ _ X1 X2 Q2) in Q1. discriminate Q1. }
    exists t', o', (lt ++ its X), (its Y). split; [reflexivity|].
    split. { rewrite <- app_assoc. apply Permutation_app_head. rewrite PXY. exact P'. }
    split; [intros e I; apply in_or_app; auto|].
    split. { intros _. apply below_app_l. split; [eapply below_perm; [exact P|reflexivity|exact BY]|exact BXY]. }
    split; [intros Q; destruct (BlF Q)|].
    assert (BX' : below lt (its X)) by (eapply below_perm; [exact P|reflexivity|exact BX]).
    assert (KT : kinds (lt ++ its X) = D) by (rewrite (kinds_app _ _ BX'); lia).
    split; [exact KT|]. split; [lia|].
    split. { exists (bt ++ X). split; [exact H1|]. split; [apply good_ok; trivial|]. split; [rewrite its_app; apply Permutation_app_tail, P|].
             rewrite (C3 _ Ic). f_equal. rewrite app_length. lia. }
    split. { destruct HY as (Y0 & Q1 & Q2). exists Y0. split; [cbn [nodes in_memory]; apply touch_all, Q1|exact Q2]. }
    split. { split; [|lia]. rewrite (C4 _ Uc). rewrite u64_small; lia. }
    split. { split; [|lia]. rewrite (C2 _ Uc'). rewrite u64_small; lia. }
    split; [apply (good_unshared r _ _ H1 GT)|]. split; [apply (good_unshared r _ _ Ht GY)|]. auto.
  - rewrite (Sd1 Bl).
    destruct (take_high_spec r bo o t PNull (Z.of_nat (D - kinds lt)) H' G' Hp) as (X & Y & o' & t' & E & GXY & PXY & Kw & Ht & Hu & Ed & C1 & C2 & C3 & C4).
    { rewrite Kp'. lia. }
    rewrite E. cbn [rbind]. rewrite its_app in PXY.
    pose proof (proj1 (good_app _ _ _) GXY) as (GX & GY & BXY).
    pose proof (small_perm _ _ (Permutation_sym PXY) So) as Sm. apply Forall_app in Sm. destruct Sm as [SX SY].
    assert (Bl' : below (its X ++ its Y) (its bt)).
    { eapply below_perm; [apply Permutation_sym; rewrite PXY; exact P'|apply Permutation_sym, P|exact Bl]. }
    apply below_app_l in Bl'. destruct Bl' as [BX BY].
    assert (GT : good r (Y ++ bt)) by (apply good_app; auto).
    assert (ST : Forall (fun e => quarter default_size (snd e)) (its (Y ++ bt))) by (rewrite its_app; apply Forall_app; auto).
    assert (H1 : Forall2 node_ok (nodes t') (Y ++ bt)) by (rewrite Ed; apply forall2_app; [apply new_nodes_ok|exact H]).
    assert (KY : kinds (its Y) = D - kinds lt) by lia.
    assert (KX : kinds (its X) + kinds (its Y) = kinds lo).
    { rewrite <- (kinds_app _ _ BXY), <- Kp'. apply (kinds_perm r); [|exact PXY].
      apply Forall_app. split; [apply (good_exact r X GX)|apply (good_exact r Y GY)]. }
    assert (Len : length (its X) + length (its Y) = length lo) by (rewrite <- (Permutation_length P'), <- (Permutation_length PXY), app_length; reflexivity).
    pose proof (Permutation_length P) as Len'.
    assert (IX : icount o' = u64 (Z.of_nat (length (its X)))) by (rewrite (C1 _ Ic'); f_equal; lia).
    assert (BlF : below lt lo -> False).
    { intros Q. destruct lt as [|e lt]; [contradiction|]. destruct lo as [|e' lo]; [contradiction|].
      pose proof (Q e e' (or_introl eq_refl) (or_introl eq_refl)) as Q1. pose proof (Bl e' e (or_introl eq_refl) (or_introl eq_refl)) as Q2.
      pose proof (good_exact r bt G) as F. pose proof (good_exact r bo G') as F'. rewrite Forall_forall in F, F'.
      assert (X1 : exact r (fst e)) by (apply F; eapply Permutation_in; [apply Permutation_sym, P|left; reflexivity]).
      assert (X2 : exact r (fst e')) by (apply F'; eapply Permutation_in; [apply Permutation_sym, P'|left; reflexivity]).
      rewrite (less_asym r _ _ X1 X2 Q1) in Q2. discriminate Q2. }
    exists t', o', (its Y ++ lt), (its X). split; [reflexivity|].
    split. { rewrite Permutation_app_comm, app_assoc, PXY, P'. apply Permutation_app_comm. }
    split; [intros e I; apply in_or_app; auto|].
    split; [intros Q; destruct (BlF Q)|].
    split. { intros _. apply below_app_r. split; [exact BXY|eapply below_perm; [reflexivity|exact P|exact BX]]. }
    assert (BY' : below (its Y) lt) by (eapply below_perm; [reflexivity|exact P|exact BY]).
    assert (KT : kinds (its Y ++ lt) = D) by (rewrite (kinds_app _ _ BY'); lia).
    split; [exact KT|]. split; [lia|].
    split. { exists (Y ++ bt). split; [exact H1|]. split; [apply good_ok; trivial|]. split; [rewrite its_app; apply Permutation_app_head, P|].
             rewrite (C3 _ Ic). f_equal. rewrite app_length. lia. }
    split; [apply (holds_blocks r (in_memory o') X); [exact Ht|apply good_ok; trivial|exact IX]|].
    split. { split; [|lia]. rewrite (C4 _ Uc). rewrite u64_small; lia. }
    split. { split; [|lia]. rewrite (C2 _ Uc'). rewrite u64_small; lia. }
    split; [apply (good_unshared r _ _ H1 GT)|]. split; [apply unshared_touch, (good_unshared r (in_memory o') _ Ht GX)|].
    intros [Un|Q]; [|destruct (BlF Q)]. apply holds_blocks; [apply Hu, Un|apply good_ok; trivial|exact IX].
Qed.

(** * Joining *)
Lemma all_high_spec r bs : forall l dst, Forall2 node_ok l bs -> Forall (valid r) bs ->
  all_high (length bs) l dst = Ok (map new_node bs ++ dst).
Proof.
  induction bs as [|b bs IH] using rev_ind; intros l dst H V; [reflexivity|].
  apply Forall_app in V. destruct V as [V Vb]. inversion_clear Vb.
  rewrite app_length. cbn [length]. rewrite Nat.add_1_r. cbn [all_high].
  destruct (load_spec r l bs b [] H) as (l' & El & Hl & _); trivial. rewrite El. cbn [rbind].
  destruct (erase_spec l' bs [b] [] Hl) as (He & _). rewrite app_nil_r in He. cbn [length] in He.
  rewrite (IH _ _ He V), map_app, <- app_assoc. reflexivity.
Qed.
Lemma all_low_spec r bs : forall l dst, Forall2 node_ok l bs -> Forall (valid r) bs ->
  all_low (length bs) l dst = Ok (dst ++ map new_node bs).
Proof.
  induction bs as [|b bs IH]; intros l dst H V; [cbn; rewrite app_nil_r; reflexivity|].
  inversion_clear V. cbn [length all_low].
  destruct (load_spec r l [] b bs H) as (l' & El & Hl & _); trivial. cbn [length app] in El, Hl. rewrite El. cbn [rbind].
  destruct (erase_spec l' [] [b] bs Hl) as (He & _). cbn [length app Nat.add] in He.
  rewrite (IH _ _ He), <- app_assoc; trivial.
Qed.

Lemma blocks_join r A B : blocks_ok r A -> blocks_ok r B -> below (its A) (its B) -> blocks_ok r (A ++ B).
Proof.
  intros [E O On Sm] [E' O' On' Sm'] Bl.
  assert (Ex : forall X, Forall (fine r) X -> forall e, In e (its X) -> exact r (fst e)).
  { intros X FX e I. apply its_in in I. destruct I as (b & Ib & I). rewrite Forall_forall in FX. apply (items_exact r b); [apply FX, Ib|exact I]. }
  constructor; rewrite ?its_app.
  - apply Forall_app. auto.
  - apply fop_app. split; [exact O|]. split; [exact O'|]. intros b b' Ib Ib' e e' I I'.
    assert (J : In e (its B)) by (apply its_in; eauto). assert (J' : In e' (its A)) by (apply its_in; eauto).
    apply (less_asym r (fst e') (fst e)); [apply (Ex A)|apply (Ex B)|apply Bl]; trivial.
  - apply fop_app. split; [exact On|]. split; [exact On'|]. intros e e' I I'. unfold is_entry.
    rewrite (proj1 (not_equal_less _ _ (Bl e e' I I'))). reflexivity.
  - apply Forall_app. auto.
Qed.

Lemma merge_tree r t o lt lo : tree_holds r t lt -> tree_holds r o lo -> lt <> [] -> lo <> [] -> below lt lo \/ below lo lt ->
  exists t', seg_merge t o = Ok (t', empty_tree) /\ tree_holds r t' (lt ++ lo) /\
    (keys_counted t lt -> keys_counted o lo -> ucount t' = Z.of_nat (kinds (lt ++ lo))) /\ (unshared t -> unshared o -> unshared t').
Proof.
  intros Tt To Ne Ne' Sd. destruct (side r t o lt lo Tt To Ne Ne') as [Sd1 Sd2].
  pose proof (holds_exact r t lt Tt) as Xt. pose proof (holds_exact r o lo To) as Xo.
  destruct Tt as (bt & H & B & P & Ic). destruct To as (bo & H' & B' & P' & Ic').
  assert (Vo : Forall (valid r) bo) by (eapply Forall_impl; [|exact (each_valid _ _ B')]; cbn; tauto).
  unfold seg_merge. rewrite (forall2_length _ _ _ H').
  assert (Bl : below lt lo -> below (its bt) (its bo)) by (apply below_perm; apply Permutation_sym; trivial).
  assert (Bl' : below lo lt -> below (its bo) (its bt)) by (apply below_perm; apply Permutation_sym; trivial).
  assert (Ks : kinds (lt ++ lo) = kinds lt + kinds lo).
  { destruct Sd as [Q|Q]; [apply kinds_app, Q|]. rewrite (kinds_perm r _ (lo ++ lt)), kinds_app; [lia|exact Q|apply Forall_app; auto|apply Permutation_app_comm]. }
  assert (Is : u64 (icount t + icount o) = u64 (Z.of_nat (length (lt ++ lo)))).
  { rewrite Ic, Ic', u64_add, u64_addr, app_length. f_equal. lia. }
  assert (Us : keys_counted t lt -> keys_counted o lo -> u64 (ucount t + ucount o) = Z.of_nat (kinds (lt ++ lo))).
  { intros [K1 K2] [K3 K4]. rewrite Ks, K1, K3, u64_small; lia. }
  destruct Sd as [Q|Q].
  - rewrite (Sd2 Q), (all_low_spec r bo (nodes o) (nodes t) H' Vo). cbn [rbind]. eexists. split; [reflexivity|].
    assert (HH : Forall2 node_ok (nodes t ++ map new_node bo) (bt ++ bo)) by (apply forall2_app; [exact H|apply new_nodes_ok]).
    split. { exists (bt ++ bo). split; [exact HH|]. split; [apply blocks_join; auto|]. split; [rewrite its_app; apply Permutation_app; trivial|exact Is]. }
    split; [exact Us|]. intros U U'. eapply good_unshared; [exact HH|]. apply good_app. split; [exact (unshared_good r t bt H B U)|]. split; [exact (unshared_good r o bo H' B' U')|auto].
  - rewrite (Sd1 Q), (all_high_spec r bo (nodes o) (nodes t) H' Vo). cbn [rbind]. eexists. split; [reflexivity|].
    assert (HH : Forall2 node_ok (map new_node bo ++ nodes t) (bo ++ bt)) by (apply forall2_app; [apply new_nodes_ok|exact H]).
    split. { exists (bo ++ bt). split; [exact HH|]. split; [apply blocks_join; auto|]. split; [rewrite its_app, Permutation_app_comm; apply Permutation_app; trivial|exact Is]. }
    split; [exact Us|]. intros U U'. eapply good_unshared; [exact HH|]. apply good_app. split; [exact (unshared_good r o bo H' B' U')|]. split; [exact (unshared_good r t bt H B U)|auto].
Qed.

(** * Reading *)
Lemma scan_spec r Y : forall l X, Forall2 node_ok l (X ++ Y) -> Forall (valid r) Y ->
  scan_from l (length X) (length Y) = Ok (concat (map (fun b => rev (items b)) Y)).
Proof.
  induction Y as [|b Y IH]; intros l X H V; [reflexivity|]. inversion_clear V as [|? ? Vb V']. cbn [length scan_from].
  destruct (load_spec r l X b Y H Vb) as (l' & El & Hl & _). rewrite El. cbn [rbind].
  change (b :: Y) with ([b] ++ Y) in Hl. rewrite app_assoc in Hl. specialize (IH l' (X ++ [b]) Hl V').
  rewrite app_length in IH. cbn [length] in IH. rewrite IH. cbn [rbind map concat]. reflexivity.
Qed.

Lemma scan_tree r t l : tree_holds r t l -> exists s, seg_scan t = Ok s /\ Permutation s l /\
  StronglySorted (fun e e' : pval * list byte => less (fst e') (fst e) = false) s.
Proof.
  intros (bs & H & B & P & _). unfold seg_scan. rewrite (forall2_length _ _ _ H).
  assert (V : Forall (valid r) bs) by (eapply Forall_impl; [|exact (each_valid _ _ B)]; cbn; tauto).
  pose proof (scan_spec r bs (nodes t) [] H V) as Sc. cbn [length] in Sc. rewrite Sc. clear Sc V.
  eexists. split; [reflexivity|]. split.
  - rewrite <- P. unfold its. clear. induction bs as [|b bs IH]; [reflexivity|]. cbn [map concat]. apply Permutation_app; [|exact IH].
    apply Permutation_sym, Permutation_rev.
  - pose proof (each_valid _ _ B) as V. pose proof (in_order _ _ B) as O. clear - V O.
    assert (J : forall (R : pval * list byte -> pval * list byte -> Prop) l l', StronglySorted R l -> StronglySorted R l' -> (forall a b, In a l -> In b l' -> R a b) -> StronglySorted R (l ++ l')).
    { clear. intros R l l' S S' C. induction S as [|a l S IH F]; [exact S'|]. cbn [app]. constructor.
      - apply IH. intros; apply C; trivial; right; trivial.
      - apply Forall_app. split; [exact F|]. apply Forall_forall. intros b I. apply C; [left; reflexivity|exact I]. }
    induction bs as [|b bs IH]; [constructor|]. inversion_clear V as [|? ? (Vb & _) V']. inversion_clear O as [|? ? Ob O'].
    cbn [map concat]. apply J; [|apply IH; trivial|].
    + pose proof (valid_sorted _ _ Vb) as S. unfold items. clear - S J. generalize (read b) as f. intros f. induction S as [|m l S IH F]; [constructor|].
      cbn [map rev]. apply J; [exact IH|constructor; constructor|]. intros a c Ia [<-|[]]. apply in_rev in Ia. apply in_map_iff in Ia.
      destruct Ia as (m' & <- & I). cbn [fst]. rewrite Forall_forall in F. apply F, I.
    + intros e e' I I'. apply in_rev in I. apply in_concat in I'. destruct I' as (s & Is & I'). apply in_map_iff in Is. destruct Is as (b' & <- & Ib').
      apply in_rev in I'. rewrite Forall_forall in Ob. apply (Ob b' Ib' e' e I' I).
Qed.

(** What is read does not depend on the marks. *)
Lemma lower_bound_map {A B} (f : A -> B) c l : forall fuel first len, lower_bound fuel c (map f l) first len = lower_bound fuel (fun x => c (f x)) l first len.
Proof.
  induction fuel as [|fuel IH]; intros first len; [reflexivity|]. cbn [lower_bound]. destruct len; [reflexivity|].
  rewrite nth_error_map. destruct (nth_error l (first + Nat.div2 (S len))) as [x|]; cbn [option_map]; [|reflexivity].
  destruct (c (f x)); apply IH.
Qed.
Lemma lower_bound_ext {A} (c c' : A -> bool) l : (forall x, c x = c' x) -> forall fuel first len, lower_bound fuel c l first len = lower_bound fuel c' l first len.
Proof.
  intros E. induction fuel as [|fuel IH]; intros first len; [reflexivity|]. cbn [lower_bound]. destruct len; [reflexivity|].
  destruct (nth_error l (first + Nat.div2 (S len))) as [x|]; [|reflexivity]. rewrite E. destruct (c' x); apply IH.
Qed.
Lemma range_touch l k : find_range (map touch_node l) k = find_range l k.
Proof.
  unfold find_range, lower_bound_in. rewrite map_length, !lower_bound_map.
  rewrite (lower_bound_ext (fun x => less (nmax (touch_node x)) k) (fun n => less (nmax n) k)) by (intros; rewrite (proj2 (touch_bounds _)); reflexivity).
  rewrite (lower_bound_ext (fun x => less_equal (nmin (touch_node x)) k) (fun n => less_equal (nmin n) k)) by (intros; rewrite (proj1 (touch_bounds _)); reflexivity).
  reflexivity.
Qed.
Lemma load_touch l i : (do '(b, _) <- load_at (map touch_node l) i; Ok b) = (do '(b, _) <- load_at l i; Ok b).
Proof.
  unfold load_at. rewrite nth_error_map. destruct (nth_error l i) as [n|]; cbn [option_map]; [|reflexivity].
  unfold touch_node. destruct (nblk n) eqn:E; cbn; rewrite ?E; [reflexivity|]. destruct (ndisk n); [|reflexivity]. destruct (restore_block b); reflexivity.
Qed.
Lemma range_block_touch l f i : block_in_range (map touch_node l) f i = block_in_range l f i.
Proof.
  unfold block_in_range. destruct (i =? f); [apply load_touch|]. rewrite nth_error_map. destruct (nth_error l i) as [n|]; [|reflexivity]. cbn [option_map].
  unfold touch_node. destruct (nblk n) eqn:E; cbn; rewrite ?E; reflexivity.
Qed.
Lemma in_first_touch {A} l i (f : block -> A) : in_first (map touch_node l) i f = in_first l i f.
Proof. unfold in_first. rewrite range_block_touch. reflexivity. Qed.

Lemma lookups_touch t k :
  (forall x, seg_contains (in_memory t) k x = seg_contains t k x) /\ seg_contains_key (in_memory t) k = seg_contains_key t k /\
  seg_item_count (in_memory t) k = seg_item_count t k /\ seg_get_items (in_memory t) k = seg_get_items t k /\
  (forall p, seg_get_item (in_memory t) k p = seg_get_item t k p).
Proof.
  unfold seg_contains, seg_contains_key, seg_item_count, seg_get_items, seg_get_item, in_memory. cbn [nodes].
  rewrite range_touch, map_length. destruct (find_range (nodes t) k) as [i j].
  assert (R1 : forall x c n, contains_loop (map touch_node (nodes t)) k x i n c = contains_loop (nodes t) k x i n c).
  { intros x. induction c as [|c IH]; intros n; [reflexivity|]. cbn [contains_loop]. rewrite range_block_touch. destruct (block_in_range (nodes t) i n); [|reflexivity]. cbn [rbind]. rewrite IH. reflexivity. }
  assert (R2 : forall c n, count_loop (map touch_node (nodes t)) k i n c = count_loop (nodes t) k i n c).
  { induction c as [|c IH]; intros n; [reflexivity|]. cbn [count_loop]. rewrite range_block_touch. destruct (block_in_range (nodes t) i n); [|reflexivity]. cbn [rbind]. rewrite IH. reflexivity. }
  assert (R3 : forall c n, items_loop (map touch_node (nodes t)) k i n c = items_loop (nodes t) k i n c).
  { induction c as [|c IH]; intros n; [reflexivity|]. cbn [items_loop]. rewrite range_block_touch. destruct (block_in_range (nodes t) i n); [|reflexivity]. cbn [rbind]. rewrite IH. reflexivity. }
  assert (R4 : forall p c n s, item_loop (map touch_node (nodes t)) k i n c s p = item_loop (nodes t) k i n c s p).
  { intros p. induction c as [|c IH]; intros n s; [reflexivity|]. cbn [item_loop]. rewrite range_block_touch. destruct (block_in_range (nodes t) i n); [|reflexivity]. cbn [rbind]. rewrite IH. reflexivity. }
  destruct (i =? length (nodes t)); [repeat split; reflexivity|]. rewrite !in_first_touch, R2, R3.
  split; [intros x; rewrite R1, in_first_touch; reflexivity|]. split; [reflexivity|]. split; [reflexivity|]. split; [reflexivity|].
  intros p. rewrite R4, in_first_touch. reflexivity.
Qed.

Lemma scan_touch t : seg_scan (in_memory t) = seg_scan t.
Proof.
  unfold seg_scan, in_memory. cbn [nodes]. rewrite map_length.
  assert (G : forall c l l' i, (forall j, (do '(b, _) <- load_at l j; Ok b) = (do '(b, _) <- load_at l' j; Ok b)) -> scan_from l i c = scan_from l' i c).
  2:{ apply G. intros j. apply load_touch. }
  assert (Ld : forall l i b l1, load_at l i = Ok (b, l1) -> forall j, (do '(b, _) <- load_at l1 j; Ok b) = (do '(b, _) <- load_at l j; Ok b)).
  { clear. intros l i b l1. unfold load_at at 1. destruct (nth_error l i) as [n|] eqn:E; [|discriminate]. destruct (nblk n) as [b0|] eqn:Eb; [intros Q; injection Q as _ <-; reflexivity|].
    destruct (ndisk n) as [d|] eqn:Ed; [|discriminate]. destruct (restore_block d) as [b1|] eqn:Er; [|discriminate]. cbn [rbind]. intros Q j. injection Q as <- <-.
    apply nth_error_split in E. destruct E as (l1 & l2 & -> & <-). rewrite set_nth_app. unfold load_at.
    destruct (Nat.lt_trichotomy j (length l1)) as [Q|[->|Q]].
    - rewrite !nth_error_app1 by lia. destruct (nth_error l1 j) as [m|]; [|reflexivity]. destruct (nblk m); [reflexivity|]. destruct (ndisk m); [|reflexivity]. destruct (restore_block b); reflexivity.
    - rewrite !nth_error_mid. cbn. rewrite Eb, Ed, Er. reflexivity.
    - rewrite !nth_error_app2 by lia. replace (j - length l1) with (Datatypes.S (j - length l1 - 1)) by lia. cbn [nth_error].
      destruct (nth_error l2 _) as [m|]; [|reflexivity]. destruct (nblk m); [reflexivity|]. destruct (ndisk m); [|reflexivity]. destruct (restore_block b); reflexivity. }
  induction c as [|c IH]; intros l l' i H; [reflexivity|]. cbn [scan_from]. pose proof (H i) as Hi.
  destruct (load_at l i) as [[b l1]|e] eqn:E1, (load_at l' i) as [[b' l1']|e'] eqn:E2; cbn [rbind] in Hi |- *; try discriminate; [|congruence].
  injection Hi as <-. rewrite (IH l1 l1'); [reflexivity|]. intros j. rewrite (Ld _ _ _ _ E1 j), (Ld _ _ _ _ E2 j). apply H.
Qed.

Lemma unshared_one r t l k : tree_holds r t l -> unshared t -> exact r k -> one_block t k.
Proof.
  intros (bs & H & B & _) U Hk p q n m Ep Eq [P1 P2] [Q1 Q2].
  pose proof (blocks_ordered r _ bs H B) as [F _]. unfold unshared in U.
  assert (T : forall i j a b, i < j -> nth_error (nodes t) i = Some a -> nth_error (nodes t) j = Some b -> less (nmax a) (nmin b) = true).
  { clear - U. induction U as [|x l F U IH]; intros i j a b L Ei Ej; [destruct i; discriminate|].
    destruct j as [|j]; [lia|]. destruct i as [|i]; cbn in Ei, Ej.
    - injection Ei as <-. rewrite Forall_forall in F. apply F, (nth_error_In _ _ Ej).
    - apply (IH i j); trivial. lia. }
  rewrite Forall_forall in F.
  destruct (F n (nth_error_In _ _ Ep)) as (F1 & F2 & _), (F m (nth_error_In _ _ Eq)) as (G1 & G2 & _).
  destruct (Nat.lt_trichotomy p q) as [L|[L|L]]; [|exact L|]; exfalso.
  - pose proof (T _ _ _ _ L Ep Eq) as X. pose proof (le_less r k (nmax n) (nmin m) Hk F2 G1 P2 X). congruence.
  - pose proof (T _ _ _ _ L Eq Ep) as X. pose proof (le_less r k (nmax m) (nmin n) Hk G2 F1 Q2 X). congruence.
Qed.

Lemma lookup_cut r t l k : tree_holds r (in_memory t) l -> unshared t -> exact r k ->
  (forall x, seg_contains t k x = Ok (has_entry l k x)) /\ seg_contains_key t k = Ok (has_key l k) /\
  seg_item_count t k = Ok (length (filter (fun e => equal k (fst e)) l)) /\
  (exists s, seg_get_items t k = Ok s /\ Permutation s (map snd (filter (fun e => equal k (fst e)) l))) /\
  (exists s, (forall p, seg_get_item t k p = Ok (nth_error s p)) /\ Permutation s (map snd (filter (fun e => equal k (fst e)) l))) /\
  (exists s, seg_scan t = Ok s /\ Permutation s l /\ StronglySorted (fun e e' : pval * list byte => less (fst e') (fst e) = false) s).
Proof.
  intros T U Hk. destruct (lookups_touch t k) as (L1 & L2 & L3 & L4 & L5).
  destruct (lookup_tree r (in_memory t) l k T Hk) as (M1 & M2 & M3 & (s & M4 & M4') & (s' & M5 & M5')).
  { right. apply (unshared_one r _ l); trivial. apply unshared_touch, U. }
  split; [intros x; rewrite <- L1; apply M1|]. split; [rewrite <- L2; exact M2|]. split; [rewrite <- L3; exact M3|].
  split; [exists s; rewrite <- L4; auto|]. split; [exists s'; split; [intros p; rewrite <- L5; apply M5|exact M5']|].
  destruct (scan_tree r _ l T) as (s0 & S1 & S2). exists s0. rewrite <- scan_touch. auto.
Qed.

(** * A block that was written before *)
Lemma split_saved r t l n : tree_holds r t l -> nodes t = [n] -> nmod n = false -> keys_counted t l -> no_null l -> 2 <= kinds l ->
  exists t1 t2 l1 l2 s1 s2, seg_split t = Ok (t1, t2) /\ Permutation (l1 ++ l2) l /\ tree_holds r (in_memory t1) l1 /\ tree_holds r t2 l2 /\ l2 <> [] /\
    seg_scan (flush_and_load t1) = Ok s1 /\ Permutation s1 l /\ seg_scan (flush_and_load t2) = Ok s2 /\ Permutation s2 l2.
Proof.
  intros T En Em K Nn K2.
  assert (U : unshared t) by (unfold unshared; rewrite En; constructor; constructor).
  assert (Ne : l <> []) by (intros ->; cbn in K2; lia).
  destruct (split_tree r t l T U K Nn Ne) as (t1 & t2 & l1 & l2 & E & P & _ & KK2 & _ & H1 & H2 & _).
  assert (N2 : l2 <> []). { intros ->. assert (Q : 1 <= kinds l / 2) by (apply Nat.div_le_lower_bound; lia). rewrite <- KK2 in Q. cbn in Q. lia. }
  destruct (scan_tree r _ l2 (reload_tree r t2 l2 H2)) as (s2 & S2 & P2 & _).
  destruct T as (bs & H & B & Pl & Ic). rewrite En in H. inversion H as [|? b ? ? Hn H0]; subst. inversion H0; subst.
  pose proof (each_valid _ _ B) as V. inversion_clear V as [|? ? (Vb & Nb & _) _]. clear H0.
  assert (Dk : ndisk n = Some b) by (apply (node_disk _ _ Hn); auto).
  assert (S1 : exists s1, seg_scan (flush_and_load t1) = Ok s1 /\ Permutation s1 l).
  { clear S2 P2 H1 H2 KK2. unfold seg_split in E. rewrite En in E. cbn [length take_high] in E.
    assert (exists n1, load_at (nodes t) 0 = Ok (b, [n1]) /\ ndisk n1 = Some b /\ nmod n1 = false) as (n1 & El & D1 & M1).
    { rewrite En. unfold load_at. cbn [nth_error]. destruct (nblk n) as [b'|] eqn:Eb.
      - destruct (node_mem _ _ Hn) as [Q|Q]; rewrite Eb in Q; [|discriminate]. injection Q as ->. eauto.
      - rewrite Dk, (restore_spec r b Vb). cbn. eexists. split; [reflexivity|]. auto. }
    rewrite El in E. cbn [rbind] in E.
    destruct (bounds_spec r b Vb Nb) as ((x1 & I1) & (x2 & I2) & _).
    assert (Null : forall k x, In (k, x) (items b) -> equal PNull k = false).
    { intros k x I. apply null_equal, (Nn (k, x)). eapply Permutation_in; [exact Pl|]. rewrite its_one. exact I. }
    rewrite (Null _ _ I1), (Null _ _ I2) in E. cbn [one_if] in E. destruct (buniq_small r b Vb) as (Us & Uk).
    assert (Kl : kinds (items b) = kinds l).
    { rewrite <- its_one. apply (kinds_perm r); [|exact Pl]. apply Forall_forall. intros e I. apply (its_exact r [b] e B I). }
    rewrite Z.sub_0_r, Z.add_0_r, (u64_small _ Us) in E. destruct K as (Kc & Kb).
    assert (W : (ucount t / 2)%Z = Z.of_nat (kinds l / 2)) by (rewrite Kc, Nat2Z.inj_div; reflexivity).
    assert (Hlt : kinds l / 2 < kinds l) by (apply Nat.div_lt; lia).
    assert (Hge : 1 <= kinds l / 2) by (apply Nat.div_le_lower_bound; lia).
    rewrite W in E. rewrite (u64_small (Z.of_nat (kinds l / 2))) in E by lia.
    destruct (Z.leb_spec (buniq b) (Z.of_nat (kinds l / 2))) as [Q|_]; [lia|].
    destruct (Z.eqb_spec (Z.of_nat (kinds l / 2)) 0) as [Q|_]; [lia|].
    destruct (Z.eqb_spec (Z.of_nat (kinds l / 2)) (buniq b)) as [Q|_]; [lia|]. cbn [orb] in E.
    destruct (split_uniques_spec r b (Z.to_nat (Z.of_nat (kinds l / 2))) Vb) as (nb & b1 & Es & _). { unfold kinds in *. lia. }
    rewrite Es in E. cbn [rbind update_bounds nth_error set_nth firstn skipn app Nat.add] in E. injection E as <- _.
    unfold seg_scan, flush_and_load, flush_node, unload_node, shrunk. cbn. rewrite M1. cbn. rewrite D1. unfold load_at. cbn.
    rewrite (restore_spec r b Vb). cbn. rewrite app_nil_r. eexists. split; [reflexivity|]. rewrite <- Pl, its_one.
    apply Permutation_sym, Permutation_rev. }
  destruct S1 as (s1 & S1 & P1). exists t1, t2, l1, l2, s1, s2. auto 10.
Qed.

(** * Trees for examples *)
Lemma block_exists (l : bag) : Forall (fun e => exact NoFloats (fst e) /\ snd e <> []) l -> once l -> room l <= default_size ->
  exists b, valid NoFloats b /\ Permutation (items b) l /\ bfull b = default_size.
Proof.
  intros F O R. induction l as [|[k x] l IH].
  - exists (initialize default_size). split; [|split; reflexivity]. apply valid_init; pose proof default_big; lia.
  - inversion_clear F as [|? ? [Hk Hx] F']. inversion_clear O as [|? ? Ok O']. rewrite room_cons in R. cbn [fst snd] in *.
    destruct (IH F' O') as (b & V & P & Bf); [lia|].
    destruct (append_one NoFloats b k x V Hk Hx) as (_ & P1 & V1 & B1).
    + rewrite (has_entry_perm _ _ k x P). unfold has_entry. destruct (existsb (is_entry k x) l) eqn:E; trivial.
      apply existsb_exists in E. destruct E as (e & I & E). rewrite Forall_forall in Ok. rewrite (Ok e I) in E. discriminate.
    + rewrite room_cons, (room_perm _ _ P), Bf. exact R.
    + exists (snd (append b k x)). split; [exact V1|]. split; [rewrite P1; constructor; exact P|congruence].
Qed.

Definition block_for (l : bag) (b : block) : Prop := valid NoFloats b /\ Permutation (items b) l /\ bfull b = default_size.

Lemma blocks_exist (ls : list bag) : Forall (fun l : bag => Forall (fun e => exact NoFloats (fst e) /\ snd e <> []) l /\ once l /\ room l <= default_size) ls ->
  exists bs, Forall2 block_for ls bs.
Proof.
  intros F. induction F as [|l ls (F1 & F2 & F3) F IH]; [exists []; constructor|]. destruct IH as (bs & IH).
  destruct (block_exists l F1 F2 F3) as (b & Hb). exists (b :: bs). constructor; trivial.
Qed.

Definition tree_of (bs : list block) (n u : Z) : tree := {| nodes := map new_node bs; icount := n; ucount := u |}.

Lemma its_for ls bs : Forall2 block_for ls bs -> Permutation (its bs) (concat ls).
Proof. intros H. induction H as [|l b ls bs (_ & P & _) H IH]; [reflexivity|]. rewrite its_cons. cbn [concat]. apply Permutation_app; trivial. Qed.

Lemma pairs_for (R R' : bag -> bag -> Prop) ls bs : (forall l l' m m', Permutation l m -> Permutation l' m' -> R l l' -> R' m m') ->
  Forall2 block_for ls bs -> ForallOrdPairs R ls -> ForallOrdPairs (fun b b' => R' (items b) (items b')) bs.
Proof.
  intros T H O. induction H as [|l b ls bs (_ & P & _) H IH]; [constructor|]. inversion_clear O as [|? ? Ol O']. constructor; [|auto].
  apply Forall_forall. intros b' I. rewrite Forall_forall in Ol.
  assert (exists l', In l' ls /\ block_for l' b') as (l' & Il & (_ & P' & _)).
  { clear - H I. induction H as [|x y ls bs Hb H IH]; [destruct I|]. destruct I as [->|I]; [exists x; split; [left; reflexivity|trivial]|].
    destruct (IH I) as (l0 & Q & Hn). exists l0. split; [right|]; trivial. }
  apply (T l l'); [apply Permutation_sym, P|apply Permutation_sym, P'|]. apply Ol, Il.
Qed.

Lemma tree_exists (ls : list bag) bs u : Forall2 block_for ls bs -> Forall (fun l => l <> []) ls ->
  ForallOrdPairs (fun l l' => above l' l) ls -> once (concat ls) -> Forall (fun e => quarter default_size (snd e)) (concat ls) ->
  tree_holds NoFloats (tree_of bs (u64 (Z.of_nat (length (concat ls)))) u) (concat ls) /\
  (ForallOrdPairs below ls -> unshared (tree_of bs (u64 (Z.of_nat (length (concat ls)))) u)) /\
  Forall unsaved (nodes (tree_of bs (u64 (Z.of_nat (length (concat ls)))) u)).
Proof.
  intros H Ne A O Sm. pose proof (its_for ls bs H) as P.
  assert (E : Forall (fine NoFloats) bs).
  { clear - H Ne. induction H as [|l b ls bs (V & P & Bf) H IH]; [constructor|]. inversion_clear Ne as [|? ? Nl Ne']. constructor; [|auto].
    split; [exact V|]. split; [|exact Bf]. intros Q. rewrite Q in P. apply Permutation_nil in P. contradiction. }
  assert (B : blocks_ok NoFloats bs).
  { constructor; [exact E| | |].
    - apply (pairs_for (fun l l' => above l' l) (fun l l' => above l' l) ls); trivial. intros l l' m m' P1 P2 Q. eapply above_perm; [| |exact Q]; apply Permutation_sym; trivial.
    - eapply once_perm; [apply Permutation_sym, P|exact O].
    - eapply Permutation_Forall; [apply Permutation_sym, P|exact Sm]. }
  split; [exists bs; split; [apply new_nodes_ok|]; split; [exact B|]; split; [exact P|reflexivity]|]. split.
  - intros Bl. apply (good_unshared NoFloats _ bs); [apply new_nodes_ok|]. constructor; [exact E|].
    apply (pairs_for below below ls); trivial. intros l l' m m' P1 P2. apply below_perm; trivial.
  - cbn [nodes tree_of]. apply Forall_forall. intros n I. apply in_map_iff in I. destruct I as (b & <- & _). split; [discriminate|reflexivity].
Qed.

Fixpoint pairs {A} (f : A -> A -> bool) (l : list A) : bool :=
  match l with [] => true | a :: r => forallb (f a) r && pairs f r end.
Lemma pairs_spec {A} (f : A -> A -> bool) (R : A -> A -> Prop) l : (forall a b, f a b = true -> R a b) -> pairs f l = true -> ForallOrdPairs R l.
Proof.
  intros H. induction l as [|a l IH]; intros E; [constructor|]. cbn [pairs] in E. apply andb_true_iff in E. destruct E as [E1 E2].
  constructor; [|auto]. apply Forall_forall. intros b I. rewrite forallb_forall in E1. auto.
Qed.
Lemma once_check (l : bag) : pairs (fun e e' : pval * list byte => negb (is_entry (fst e) (snd e) e')) l = true -> once l.
Proof. apply pairs_spec. intros a b E. apply negb_true_iff, E. Qed.
Lemma below_check l l' : forallb (fun e => forallb (fun e' => less (fst e) (fst e')) l') l = true -> below l l'.
Proof. intros H e e' I I'. rewrite forallb_forall in H. specialize (H e I). rewrite forallb_forall in H. auto. Qed.
Lemma above_check l l' : forallb (fun e => forallb (fun e' => negb (less (fst e) (fst e'))) l') l = true -> above l l'.
Proof. intros H e e' I I'. rewrite forallb_forall in H. specialize (H e I). rewrite forallb_forall in H. apply negb_true_iff; auto. Qed.
Lemma small_items (l : bag) : forallb (fun e => length (snd e) <=? 10) l = true -> Forall (fun e : pval * list byte => quarter default_size (snd e)) l.
Proof.
  intros H. apply Forall_forall. intros e I. rewrite forallb_forall in H. specialize (H e I). apply Nat.leb_le in H.
  unfold quarter. pose proof default_big. lia.
Qed.
Lemma small_room (l : bag) : room l <=? 1000 = true -> room l <= default_size.
Proof. intros H. apply Nat.leb_le in H. pose proof default_big. lia. Qed.

Definition key (z : Z) : pval := PInt I64 z.
Lemma key_exact z : (- 2 ^ 63 <= z < 2 ^ 63)%Z -> exact NoFloats (key z).
Proof. intros H. split; [exact H|exact I]. Qed.

(** The bounds of a block are the extreme keys. *)
Lemma min_of b l k : block_for l b -> In k (map fst l) -> (forall k', In k' (map fst l) -> less k' k = false) -> (forall k', In k' (map fst l) -> less k k' = false -> k' = k) ->
  min_index b = k.
Proof.
  intros (V & P & _) I Lo Un. assert (N : items b <> []) by (intros Q; rewrite Q in P; apply Permutation_nil in P; rewrite P in I; exact I).
  destruct (bounds_spec NoFloats b V N) as (_ & (x & Im) & B). apply in_map_iff in I. destruct I as (e & <- & I).
  apply Un.
  - apply (in_map fst _ _ (Permutation_in _ P Im)).
  - apply (B e). eapply Permutation_in; [apply Permutation_sym, P|exact I].
Qed.
Lemma max_of b l k : block_for l b -> In k (map fst l) -> (forall k', In k' (map fst l) -> less k' k = false -> k' = k) ->
  max_index b = k.
Proof.
  intros (V & P & _) I Un. assert (N : items b <> []) by (intros Q; rewrite Q in P; apply Permutation_nil in P; rewrite P in I; exact I).
  destruct (bounds_spec NoFloats b V N) as ((x & Im) & _ & B). apply in_map_iff in I. destruct I as (e & <- & I).
  apply Un.
  - apply (in_map fst _ _ (Permutation_in _ P Im)).
  - apply (B e). eapply Permutation_in; [apply Permutation_sym, P|exact I].
Qed.
Lemma uniq_of b l : block_for l b -> Forall (fun e => exact NoFloats (fst e)) l -> buniq b = Z.of_nat (kinds l).
Proof.
  intros (V & P & _) F. rewrite (proj2 (buniq_small NoFloats b V)). f_equal. apply (kinds_perm NoFloats); [|exact P].
  eapply Permutation_Forall; [apply Permutation_sym, P|exact F].
Qed.
Lemma count_of b l : block_for l b -> bcount b = Z.of_nat (length l).
Proof. intros (V & P & _). rewrite (bcount_len NoFloats b V), (Permutation_length P). reflexivity. Qed.
