(** Proofs about segment trees. *)
From Coq Require Import ZArith Sorting.Permutation Sorting.Sorted Lia.
From Verif Require Import Bytes Outcome PhysModel PhysSpec PhysProofs BlockModel BlockSpec BlockProofs SegModel SegSpec.

(** * The range of blocks of a key *)
Lemma mono_split {A} (c : A -> bool) l : ForallOrdPairs (fun a b => c b = true -> c a = true) l ->
  exists l1 l2, l = l1 ++ l2 /\ Forall (fun x => c x = true) l1 /\ Forall (fun x => c x = false) l2.
Proof.
  induction 1 as [|a l F O IH]; [exists [], []; auto|].
  destruct (c a) eqn:E.
  - destruct IH as (l1 & l2 & -> & H1 & H2). exists (a :: l1), l2. auto.
  - exists [], (a :: l). split; [reflexivity|]. split; [constructor|]. constructor; [exact E|].
    rewrite Forall_forall in *. intros x I. destruct (c x) eqn:X; trivial. specialize (F x I X). congruence.
Qed.

Lemma partitioned_from {A} (c : A -> bool) l1 l2 l3 :
  Forall (fun x => c x = true) l2 -> Forall (fun x => c x = false) l3 ->
  lower_bound_in c (l1 ++ l2 ++ l3) (length l1) = length l1 + length l2.
Proof.
  intros H2 H3. unfold lower_bound_in.
  assert (G : forall fuel first len, len < fuel -> length l1 <= first -> first <= length l1 + length l2 ->
    length l1 + length l2 <= first + len -> first + len <= length (l1 ++ l2 ++ l3) ->
    lower_bound fuel c (l1 ++ l2 ++ l3) first len = length l1 + length l2).
  { induction fuel as [|f IH]; intros first len Hf G0 G1 G2 G3; [lia|]. cbn [lower_bound].
    destruct len as [|len']; [lia|].
    assert (Hd : Nat.div2 (S len') <= len') by (rewrite Nat.div2_div; apply Nat.lt_succ_r, Nat.div_lt; lia).
    set (half := Nat.div2 (S len')) in *.
    destruct (nth_error (l1 ++ l2 ++ l3) (first + half)) as [x|] eqn:E; [|apply nth_error_None in E; lia].
    rewrite nth_error_app2 in E by lia.
    destruct (Nat.ltb_spec (first + half) (length l1 + length l2)) as [L|L].
    - rewrite nth_error_app1 in E by lia. apply nth_error_In in E. rewrite Forall_forall in H2. rewrite (H2 x E). apply IH; lia.
    - rewrite nth_error_app2 in E by lia. apply nth_error_In in E. rewrite Forall_forall in H3. rewrite (H3 x E). apply IH; lia. }
  apply G; rewrite ?app_length; lia.
Qed.

Lemma fop_impl {A} (R R' : A -> A -> Prop) l : (forall a b, In a l -> In b l -> R a b -> R' a b) -> ForallOrdPairs R l -> ForallOrdPairs R' l.
Proof.
  intros H F. induction F as [|a l F O IH]; constructor.
  - rewrite Forall_forall in *. intros b I. apply H; [left; reflexivity|right; exact I|auto].
  - apply IH. intros x y Ix Iy. apply H; right; trivial.
Qed.

Lemma range_parts r l k : ordered r l -> exact r k ->
  exists L M R, l = L ++ M ++ R /\ find_range l k = (length L, length L + length M) /\
    Forall (fun n => less (nmax n) k = true) L /\ Forall (fun n => may_hold n k) M /\ Forall (fun n => less k (nmin n) = true) R.
Proof.
  intros [H O] Hk. rewrite Forall_forall in H.
  destruct (mono_split (fun n => less (nmax n) k) l) as (L & l2 & -> & HL & H2).
  { refine (fop_impl _ _ l _ O). intros a b Ia Ib Hab Hb. destruct (H a Ia) as (A1 & A2 & A3), (H b Ib) as (B1 & B2 & B3).
    apply (le_less r (nmax a) (nmax b) k); trivial. apply (le_trans r (nmax b) (nmin b) (nmax a)); trivial. }
  apply fop_app in O. destruct O as (_ & O & _).
  destruct (mono_split (fun n => less_equal (nmin n) k) l2) as (M & R & -> & HM & HR).
  { refine (fop_impl _ _ l2 _ O). intros a b Ia Ib Hab Hb. unfold less_equal, greater in *. apply negb_true_iff in Hb. apply negb_true_iff.
    destruct (H a) as (A1 & A2 & A3); [apply in_or_app; auto|]. destruct (H b) as (B1 & B2 & B3); [apply in_or_app; auto|].
    apply (le_trans r k (nmin b) (nmin a)); trivial. apply (le_trans r (nmin b) (nmax a) (nmin a)); trivial. }
  exists L, M, R. split; [reflexivity|]. split; [|split; [exact HL|split]].
  - unfold find_range.
    rewrite (lower_bound_in_spec (fun n => less (nmax n) k) (L ++ M ++ R) (length L) 0 (partitioned_app _ _ _ HL H2)) by lia.
    rewrite partitioned_from; trivial.
  - rewrite Forall_forall in *. intros n I. split.
    + specialize (HM n I). unfold less_equal, greater in HM. apply negb_true_iff in HM. exact HM.
    + apply H2. apply in_or_app. auto.
  - rewrite Forall_forall in *. intros n I. specialize (HR n I). unfold less_equal, greater in HR. apply negb_false_iff in HR. exact HR.
Qed.

Lemma range_spec r l k i j : ordered r l -> exact r k -> find_range l k = (i, j) ->
  i <= j <= length l /\ forall p n, nth_error l p = Some n -> (i <= p < j <-> may_hold n k).
Proof.
  intros O Hk E. destruct (range_parts r l k O Hk) as (L & M & R & -> & F & HL & HM & HR). rewrite F in E. injection E as <- <-.
  split; [rewrite !app_length; lia|]. intros p n En.
  destruct (Nat.ltb_spec p (length L)) as [P1|P1].
  - rewrite nth_error_app1 in En by lia. apply nth_error_In in En. rewrite Forall_forall in HL. specialize (HL n En).
    split; [lia|]. intros [_ H]. congruence.
  - rewrite nth_error_app2 in En by lia. destruct (Nat.ltb_spec (p - length L) (length M)) as [P2|P2].
    + rewrite nth_error_app1 in En by lia. apply nth_error_In in En. rewrite Forall_forall in HM. split; [intros _; auto|lia].
    + rewrite nth_error_app2 in En by lia. apply nth_error_In in En. rewrite Forall_forall in HR. specialize (HR n En).
      split; [lia|]. intros [H _]. congruence.
Qed.

(** * Nodes and blocks *)
Lemma forall2_app {A B} (R : A -> B -> Prop) l1 l2 l1' l2' : Forall2 R l1 l1' -> Forall2 R l2 l2' -> Forall2 R (l1 ++ l2) (l1' ++ l2').
Proof. apply Forall2_app. Qed.

Lemma forall2_length {A B} (R : A -> B -> Prop) l l' : Forall2 R l l' -> length l = length l'.
Proof. induction 1; cbn; congruence. Qed.

Lemma forall2_split {A B} (R : A -> B -> Prop) l l1' l2' : Forall2 R l (l1' ++ l2') ->
  exists l1 l2, l = l1 ++ l2 /\ Forall2 R l1 l1' /\ Forall2 R l2 l2' /\ length l1 = length l1'.
Proof.
  intros H. apply Forall2_app_inv_r in H. destruct H as (l1 & l2 & H1 & H2 & ->). exists l1, l2.
  repeat split; trivial. eapply forall2_length; eassumption.
Qed.

Lemma set_nth_app {A} (l1 : list A) x y l2 : set_nth (length l1) y (l1 ++ x :: l2) = l1 ++ y :: l2.
Proof.
  unfold set_nth. rewrite firstn_length_app. f_equal. f_equal.
  replace (l1 ++ x :: l2) with ((l1 ++ [x]) ++ l2) by (rewrite <- app_assoc; reflexivity).
  replace (length l1 + 1) with (length (l1 ++ [x])) by (rewrite app_length; reflexivity). apply skipn_length_app.
Qed.

Lemma insert_nth_app {A} (l1 : list A) y l2 : insert_nth (length l1) y (l1 ++ l2) = l1 ++ y :: l2.
Proof. unfold insert_nth. rewrite firstn_length_app, skipn_length_app. reflexivity. Qed.

Lemma erase_app {A} (l1 l2 l3 : list A) : erase (length l1) (length l1 + length l2) (l1 ++ l2 ++ l3) = l1 ++ l3.
Proof.
  unfold erase. rewrite firstn_length_app. f_equal.
  rewrite app_assoc, <- app_length. apply skipn_length_app.
Qed.

Lemma nth_error_mid {A} (l1 : list A) x l2 : nth_error (l1 ++ x :: l2) (length l1) = Some x.
Proof. rewrite nth_error_app2, Nat.sub_diag by lia. reflexivity. Qed.

Definition memory (l : list node) : Prop := Forall (fun n => nblk n <> None) l.

(** Loading the block in the middle changes no content. *)
Lemma load_spec r l X b Z : Forall2 node_ok l (X ++ b :: Z) -> valid r b ->
  exists l', load_at l (length X) = Ok (b, l') /\ Forall2 node_ok l' (X ++ b :: Z) /\ length l' = length l /\ (memory l -> l' = l).
Proof.
  intros H V. destruct (forall2_split _ _ _ _ H) as (l1 & l2 & -> & H1 & H2 & L). inversion H2 as [|n b' ns bs Hn Hz]; subst.
  unfold load_at. rewrite <- L, nth_error_mid. destruct (nblk n) as [b'|] eqn:E.
  - destruct (node_mem _ _ Hn) as [Hm|Hm]; [|congruence]. rewrite E in Hm. injection Hm as ->. eauto.
  - rewrite (node_disk _ _ Hn (or_introl E)). rewrite (restore_spec r b V). cbn [rbind]. eexists. split; [reflexivity|].
    rewrite set_nth_app. split; [|split; [rewrite !app_length; reflexivity|]].
    + apply forall2_app; trivial. constructor; trivial. constructor; cbn.
      * left; reflexivity.
      * intros _. reflexivity.
      * apply (node_min _ _ Hn).
      * apply (node_max _ _ Hn).
    + intros F. exfalso. unfold memory in F. rewrite Forall_app in F. destruct F as [_ F]. inversion_clear F. congruence.
Qed.

Lemma update_spec l X b b' Z : Forall2 node_ok l (X ++ b :: Z) ->
  Forall2 node_ok (update l (length X) b') (X ++ b' :: Z) /\ length (update l (length X) b') = length l /\ (memory l -> memory (update l (length X) b')).
Proof.
  intros H. destruct (forall2_split _ _ _ _ H) as (l1 & l2 & -> & H1 & H2 & L). inversion H2 as [|n b0 ns bs Hn Hz]; subst.
  unfold update. rewrite <- L, nth_error_mid, set_nth_app. split; [|split; [rewrite !app_length; reflexivity|]].
  - apply forall2_app; trivial. constructor; trivial. constructor; cbn; auto. intros [Q|Q]; discriminate Q.
  - intros F. unfold memory in *. rewrite Forall_app in *. destruct F as [F1 F2]. split; trivial. inversion_clear F2. constructor; trivial. discriminate.
Qed.

Lemma insert_spec l X b Z : Forall2 node_ok l (X ++ Z) ->
  Forall2 node_ok (insert_nth (length X) (new_node b) l) (X ++ b :: Z) /\ (memory l -> memory (insert_nth (length X) (new_node b) l)).
Proof.
  intros H. destruct (forall2_split _ _ _ _ H) as (l1 & l2 & -> & H1 & H2 & L). rewrite <- L, insert_nth_app. split.
  - apply forall2_app; trivial. constructor; trivial. constructor; cbn; auto. intros [Q|Q]; discriminate Q.
  - intros F. unfold memory in *. rewrite Forall_app in *. destruct F as [F1 F2]. split; trivial. constructor; trivial. discriminate.
Qed.

Lemma erase_spec l X Y Z : Forall2 node_ok l (X ++ Y ++ Z) ->
  Forall2 node_ok (erase (length X) (length X + length Y) l) (X ++ Z) /\ (memory l -> memory (erase (length X) (length X + length Y) l)).
Proof.
  intros H. destruct (forall2_split _ _ _ _ H) as (l1 & l2 & -> & H1 & H2 & L). destruct (forall2_split _ _ _ _ H2) as (l3 & l4 & -> & H3 & H4 & L').
  rewrite <- L, <- L', erase_app. split; [apply forall2_app; trivial|].
  intros F. unfold memory in *. rewrite !Forall_app in *. tauto.
Qed.

(** * Sequences of blocks *)
Notation once := (ForallOrdPairs (fun e e' : pval * list byte => is_entry (fst e) (snd e) e' = false)).

Lemma fop_perm {A} (R : A -> A -> Prop) l l' : (forall a b, R a b -> R b a) -> Permutation l l' -> ForallOrdPairs R l -> ForallOrdPairs R l'.
Proof.
  intros Sy P. induction P as [|x l l' P IH|x y l|l l' l'' P1 IH1 P2 IH2]; intros F; auto.
  - inversion_clear F as [|? ? F1 F2]. constructor; [|auto]. eapply Permutation_Forall; eassumption.
  - inversion_clear F as [|? ? F1 F2]. inversion_clear F2 as [|? ? F3 F4]. inversion_clear F1 as [|? ? F5 F6].
    constructor; [constructor; auto|]. constructor; trivial.
Qed.

Lemma once_perm l l' : Permutation l l' -> once l -> once l'.
Proof. apply fop_perm. intros a b. apply once_sym. Qed.

Lemma its_app X Y : its (X ++ Y) = its X ++ its Y.
Proof. unfold its. rewrite map_app, concat_app. reflexivity. Qed.
Lemma its_cons b Y : its (b :: Y) = items b ++ its Y.
Proof. reflexivity. Qed.

Lemma its_in e bs : In e (its bs) <-> exists b, In b bs /\ In e (items b).
Proof.
  unfold its. rewrite in_concat. split.
  - intros (l & I & Ie). apply in_map_iff in I. destruct I as (b & <- & I). eauto.
  - intros (b & I & Ie). exists (items b). split; trivial. apply in_map, I.
Qed.

(** Replacing the blocks [Y] by [Y'], which hold [add] in addition and [gone] no longer. *)
Lemma blocks_replace r X Y Z Y' add gone : blocks_ok r (X ++ Y ++ Z) ->
  Permutation (its Y' ++ gone) (add ++ its Y) ->
  Forall (fun b => valid r b /\ items b <> [] /\ bfull b = default_size) Y' ->
  ForallOrdPairs (fun b b' => above (items b') (items b)) Y' ->
  once (add ++ its (X ++ Y ++ Z)) -> Forall (fun e => quarter default_size (snd e)) add ->
  above add (its X) -> above (its Z) add ->
  blocks_ok r (X ++ Y' ++ Z) /\ Permutation (its (X ++ Y' ++ Z) ++ gone) (add ++ its (X ++ Y ++ Z)).
Proof.
  intros [V O On Sm] P V' O' On' Sm' AX AZ.
  assert (P' : Permutation (its (X ++ Y' ++ Z) ++ gone) (add ++ its (X ++ Y ++ Z))).
  { rewrite !its_app. rewrite <- !app_assoc. rewrite (Permutation_app_comm (its Z) gone).
    rewrite (app_assoc (its Y')). rewrite P. rewrite <- !app_assoc. rewrite (app_assoc (its X) add), (Permutation_app_comm (its X) add), <- app_assoc.
    reflexivity. }
  assert (IY : forall e, In e (its Y') -> In e add \/ In e (its Y)).
  { intros e I. apply in_app_or, (Permutation_in _ P), in_or_app. auto. }
  split; [|exact P']. rewrite !Forall_app in V. apply fop_app in O. destruct O as (O1 & O2 & O3). apply fop_app in O2. destruct O2 as (O4 & O5 & O6).
  constructor.
  - rewrite !Forall_app. tauto.
  - apply fop_app. split; [exact O1|]. split.
    + apply fop_app. split; [exact O'|]. split; [exact O5|]. intros b b' I I' e e' Ie Ie'.
      assert (Ib : In e' (its Y')) by (apply its_in; eauto). destruct (IY e' Ib) as [J|J].
      * apply AZ; trivial. apply its_in. eauto.
      * apply its_in in J. destruct J as (b0 & J & Je). apply (O6 b0 b'); trivial.
    + intros b b' I I' e e' Ie Ie'. apply in_app_or in I'. destruct I' as [I'|I'].
      * assert (Ib : In e (its Y')) by (apply its_in; eauto). destruct (IY e Ib) as [J|J].
        -- apply AX; trivial. apply its_in. eauto.
        -- apply its_in in J. destruct J as (b0 & J & Je). apply (O3 b b0); trivial. apply in_or_app. auto.
      * apply (O3 b b'); trivial. apply in_or_app. auto.
  - apply (once_perm _ _ (Permutation_sym P')) in On'. apply fop_app in On'. tauto.
  - apply Forall_forall. intros e I. assert (I' : In e (add ++ its (X ++ Y ++ Z))).
    { apply (Permutation_in _ P'), in_or_app. auto. }
    apply in_app_or in I'. rewrite Forall_forall in Sm, Sm'. destruct I'; auto.
Qed.

Lemma blocks_ordered r l bs : Forall2 node_ok l bs -> blocks_ok r bs -> ordered r l.
Proof.
  intros H [V O On Sm].
  assert (Q : forall n b, node_ok n b -> valid r b -> items b <> [] -> exact r (nmin n) /\ exact r (nmax n) /\
    (exists x, In (nmin n, x) (items b)) /\ (exists x, In (nmax n, x) (items b)) /\ less (nmax n) (nmin n) = false).
  { intros n b Hn Vb Nb. rewrite (node_min _ _ Hn), (node_max _ _ Hn).
    destruct (bounds_spec r b Vb Nb) as ((x1 & I1) & (x2 & I2) & B).
    split; [apply (items_exact r b _ Vb I2)|]. split; [apply (items_exact r b _ Vb I1)|]. split; [eauto|]. split; [eauto|].
    apply (B _ I2). }
  clear On Sm. induction H as [|n b l bs Hn H IH]; [split; constructor|].
  inversion_clear V as [|? ? (Vb & Nb & _) V']. inversion_clear O as [|? ? O1 O2]. destruct (IH V' O2) as [I1 I2].
  destruct (Q n b Hn Vb Nb) as (Q1 & Q2 & (x1 & Q3) & (x2 & Q4) & Q5). split; constructor; trivial; [auto|].
  clear IH I1 I2. rewrite Forall_forall in O1. apply Forall_forall. intros n' I'.
  assert (exists b', In b' bs /\ node_ok n' b') as (b' & Ib & Hb).
  { clear - H I'. induction H; [destruct I'|]. destruct I' as [->|I']; [eexists; split; [left; reflexivity|trivial]|].
    destruct (IHForall2 I') as (b' & I & Hb). exists b'. split; [right|]; trivial. }
  rewrite Forall_forall in V'. destruct (V' b' Ib) as (Vb' & Nb' & _). destruct (Q n' b' Hb Vb' Nb') as (_ & _ & (x' & Q') & _).
  apply (O1 b' Ib (nmin n', x') (nmax n, x2) Q' Q4).
Qed.

(** The blocks around a key. *)
Record cut_at (r : regime) (k : pval) (bs L M R : list block) : Prop := {
  cut_eq : bs = L ++ M ++ R;
  cut_low : Forall (fun b => less (max_index b) k = true) L;
  cut_mid : Forall (fun b => less k (min_index b) = false /\ less (max_index b) k = false) M;
  cut_high : Forall (fun b => less k (min_index b) = true) R }.

Lemma cut_exists r l bs k : Forall2 node_ok l bs -> blocks_ok r bs -> exact r k ->
  exists L M R, cut_at r k bs L M R /\ find_range l k = (length L, length L + length M).
Proof.
  intros H B Hk. destruct (range_parts r l k (blocks_ordered r l bs H B) Hk) as (L & M & R & -> & F & HL & HM & HR).
  apply Forall2_app_inv_l in H. destruct H as (L' & bs2 & H1 & H2 & ->).
  apply Forall2_app_inv_l in H2. destruct H2 as (M' & R' & H2 & H3 & ->).
  exists L', M', R'. rewrite F, (forall2_length _ _ _ H1), (forall2_length _ _ _ H2). split; [|reflexivity].
  assert (T : forall (P : node -> Prop) (Q : block -> Prop) l bs, Forall2 node_ok l bs -> Forall P l -> (forall n b, node_ok n b -> P n -> Q b) -> Forall Q bs).
  { clear. intros P Q l bs H F G. induction H; [constructor|]. inversion_clear F. constructor; eauto. }
  constructor; [reflexivity|eapply T; [exact H1|exact HL|]|eapply T; [exact H2|exact HM|]|eapply T; [exact H3|exact HR|]]; cbn; intros n b Hn Q.
  - rewrite (node_max _ _ Hn) in Q. exact Q.
  - unfold may_hold in Q. rewrite (node_max _ _ Hn), (node_min _ _ Hn) in Q. exact Q.
  - rewrite (node_min _ _ Hn) in Q. exact Q.
Qed.

(** Keys of lower blocks are below, of higher blocks above. *)
Lemma low_keys r k b : valid r b -> exact r k -> less (max_index b) k = true -> forall e, In e (items b) -> less (fst e) k = true.
Proof.
  intros V Hk H e I. assert (N : items b <> []) by (intros E; rewrite E in I; exact I).
  destruct (bounds_spec r b V N) as ((x & Ix) & _ & B). destruct (B e I) as [B1 _].
  apply (le_less r (fst e) (max_index b) k); trivial; [apply (items_exact r b e V I)|apply (items_exact r b _ V Ix)].
Qed.

Lemma high_keys r k b : valid r b -> exact r k -> less k (min_index b) = true -> forall e, In e (items b) -> less k (fst e) = true.
Proof.
  intros V Hk H e I. assert (N : items b <> []) by (intros E; rewrite E in I; exact I).
  destruct (bounds_spec r b V N) as (_ & (x & Ix) & B). destruct (B e I) as [_ B1].
  apply (less_le r k (min_index b) (fst e)); trivial; [apply (items_exact r b _ V Ix)|apply (items_exact r b e V I)].
Qed.

Lemma has_entry_in l k x : has_entry l k x = true <-> exists e, In e l /\ equal k (fst e) = true /\ snd e = x.
Proof.
  unfold has_entry. rewrite existsb_exists. unfold is_entry. split.
  - intros (e & I & E). exists e. apply andb_true_iff in E. destruct E as [E1 E2]. destruct (list_eq_dec ascii_dec x (snd e)); [auto|discriminate].
  - intros (e & I & E & <-). exists e. split; trivial. rewrite E. destruct (list_eq_dec ascii_dec (snd e) (snd e)); [reflexivity|contradiction].
Qed.

Lemma not_equal_less a b : less a b = true -> equal a b = false /\ equal b a = false.
Proof.
  intros H. rewrite (equal_sym b a). split; destruct (equal a b) eqn:E; trivial; apply equal_spec in E; destruct E; congruence.
Qed.

Lemma cut_no_key r k bs L M R : cut_at r k bs L M R -> blocks_ok r bs -> exact r k ->
  (forall b, In b L -> has_key (items b) k = false /\ forall x, has_entry (items b) k x = false) /\
  (forall b, In b R -> has_key (items b) k = false /\ forall x, has_entry (items b) k x = false).
Proof.
  intros C B Hk. pose proof (each_valid _ _ B) as V. rewrite (cut_eq _ _ _ _ _ _ C) in V. rewrite Forall_forall in V.
  assert (G : forall b, valid r b -> (forall e, In e (items b) -> equal k (fst e) = false) -> has_key (items b) k = false /\ forall x, has_entry (items b) k x = false).
  { intros b _ H. split.
    - unfold has_key. destruct (existsb _ (items b)) eqn:E; trivial. apply existsb_exists in E. destruct E as (e & I & E). rewrite (H e I) in E. discriminate.
    - intros x. destruct (has_entry (items b) k x) eqn:E; trivial. apply has_entry_in in E. destruct E as (e & I & E & _). rewrite (H e I) in E. discriminate. }
  split; intros b I.
  - assert (Vb : valid r b) by (apply V, in_or_app; auto). apply G; trivial. intros e Ie.
    pose proof (cut_low _ _ _ _ _ _ C) as Q. rewrite Forall_forall in Q.
    apply (not_equal_less _ _ (low_keys r k b Vb Hk (Q b I) e Ie)).
  - assert (Vb : valid r b) by (apply V, in_or_app; right; apply in_or_app; auto). apply G; trivial. intros e Ie.
    pose proof (cut_high _ _ _ _ _ _ C) as Q. rewrite Forall_forall in Q.
    apply (not_equal_less _ _ (high_keys r k b Vb Hk (Q b I) e Ie)).
Qed.

Lemma has_entry_its bs k x : has_entry (its bs) k x = existsb (fun b => has_entry (items b) k x) bs.
Proof. induction bs as [|b bs IH]; [reflexivity|]. rewrite its_cons, has_entry_app, IH. reflexivity. Qed.

Lemma has_key_app l l' k : has_key (l ++ l') k = has_key l k || has_key l' k.
Proof. apply existsb_app. Qed.
Lemma has_key_its bs k : has_key (its bs) k = existsb (fun b => has_key (items b) k) bs.
Proof. induction bs as [|b bs IH]; [reflexivity|]. rewrite its_cons, has_key_app, IH. reflexivity. Qed.

Lemma existsb_false {A} (f : A -> bool) l : (forall x, In x l -> f x = false) -> existsb f l = false.
Proof. intros H. destruct (existsb f l) eqn:E; trivial. apply existsb_exists in E. destruct E as (x & I & E). rewrite (H x I) in E. discriminate. Qed.

Lemma cut_has_entry r k bs L M R x : cut_at r k bs L M R -> blocks_ok r bs -> exact r k ->
  has_entry (its bs) k x = has_entry (its M) k x.
Proof.
  intros C B Hk. destruct (cut_no_key r k bs L M R C B Hk) as [NL NR]. rewrite (cut_eq _ _ _ _ _ _ C), !its_app, !has_entry_app, !has_entry_its.
  rewrite (existsb_false _ L), (existsb_false _ R).
  - rewrite orb_false_r. reflexivity.
  - intros b I. apply (NR b I).
  - intros b I. apply (NL b I).
Qed.

(** * Appending *)
Lemma default_big : (Z.of_nat default_size = 262144)%Z.
Proof. unfold default_size. rewrite N_nat_Z. reflexivity. Qed.

Lemma align_small n : 0 < n -> n <= default_size -> align_to_block_size n = default_size.
Proof.
  intros H0 H1. assert (H2 : (Z.of_nat n <= 262144)%Z) by (rewrite <- default_big; lia). clear H1.
  unfold align_to_block_size, default_size. apply f_equal.
  assert (E : ((N.of_nat n + (DEFAULT_BLOCK_SIZE - 1)) / DEFAULT_BLOCK_SIZE = 1)%N).
  { symmetry. apply (N.div_unique _ _ _ (N.of_nat n - 1)); unfold DEFAULT_BLOCK_SIZE; lia. }
  rewrite E. apply N.mul_1_l.
Qed.
Opaque default_size.

Lemma available_spec r b k x : valid r b -> is_memory_available b (length x) = (room ((k, x) :: items b) <=? bfull b).
Proof.
  intros V. unfold is_memory_available, metadata_size. rewrite room_cons, (room_items r b V). pose proof (valid_space _ _ V).
  apply eq_iff_eq_true. rewrite !Nat.leb_le. lia.
Qed.

Record fresh (r : regime) (bs : list block) (k : pval) (x : list byte) : Prop := {
  fresh_key : exact r k;
  fresh_nonempty : x <> [];
  fresh_small : quarter default_size x;
  fresh_new : has_entry (its bs) k x = false }.

Lemma new_block_spec r k x : exact r k -> x <> [] -> quarter default_size x ->
  items (new_block k x) = [(k, x)] /\ valid r (new_block k x) /\ bfull (new_block k x) = default_size.
Proof.
  intros Hk Hx Hq. unfold new_block. pose proof default_big as D. unfold quarter in Hq.
  rewrite align_small by (unfold header_size, metadata_size; lia).
  assert (V : valid r (initialize default_size)) by (apply valid_init; lia).
  assert (E : items (initialize default_size) = []) by reflexivity.
  destruct (append_one r (initialize default_size) k x V Hk Hx) as (_ & P & V' & F).
  - rewrite E. reflexivity.
  - rewrite room_cons, E. cbn [bfull initialize]. unfold room. cbn [map list_sum fold_right]. lia.
  - rewrite E in P. apply Permutation_sym, Permutation_length_1_inv in P. split; [exact P|]. split; [exact V'|]. rewrite F. cbn [bfull initialize]. reflexivity.
Qed.

Definition low (k : pval) (bs : list block) : Prop := forall e, In e (its bs) -> less k (fst e) = false.
Definition high (k : pval) (bs : list block) : Prop := forall e, In e (its bs) -> less (fst e) k = false.

Lemma low_app k X Y : low k (X ++ Y) <-> low k X /\ low k Y.
Proof. unfold low. rewrite its_app. setoid_rewrite in_app_iff. split; [intros H; split; intros e I; apply H; auto|intros [H1 H2] e [I|I]; auto]. Qed.
Lemma high_app k X Y : high k (X ++ Y) <-> high k X /\ high k Y.
Proof. unfold high. rewrite its_app. setoid_rewrite in_app_iff. split; [intros H; split; intros e I; apply H; auto|intros [H1 H2] e [I|I]; auto]. Qed.
Lemma low_one k b : low k [b] <-> forall e, In e (items b) -> less k (fst e) = false.
Proof. unfold low. rewrite its_cons. cbn. rewrite app_nil_r. reflexivity. Qed.
Lemma high_one k b : high k [b] <-> forall e, In e (items b) -> less (fst e) k = false.
Proof. unfold high. rewrite its_cons. cbn. rewrite app_nil_r. reflexivity. Qed.
Lemma low_cons k b Y : low k (b :: Y) <-> low k [b] /\ low k Y.
Proof. apply (low_app k [b] Y). Qed.
Lemma high_cons k b Y : high k (b :: Y) <-> high k [b] /\ high k Y.
Proof. apply (high_app k [b] Y). Qed.

Lemma once_cons r bs k x : blocks_ok r bs -> has_entry (its bs) k x = false -> once ((k, x) :: its bs).
Proof.
  intros B H. constructor; [|apply (each_once _ _ B)]. apply Forall_forall. intros e I. cbn [fst snd].
  destruct (is_entry k x e) eqn:E; trivial. unfold has_entry in H.
  assert (existsb (is_entry k x) (its bs) = true) by (apply existsb_exists; eauto). congruence.
Qed.

Lemma add_blocks r X Y Z Y' k x : blocks_ok r (X ++ Y ++ Z) -> fresh r (X ++ Y ++ Z) k x ->
  Permutation (its Y') ((k, x) :: its Y) -> Forall (fun b => valid r b /\ items b <> [] /\ bfull b = default_size) Y' ->
  ForallOrdPairs (fun b b' => above (items b') (items b)) Y' -> low k X -> high k Z ->
  blocks_ok r (X ++ Y' ++ Z) /\ Permutation (its (X ++ Y' ++ Z)) ((k, x) :: its (X ++ Y ++ Z)).
Proof.
  intros B [Hk Hx Hq Hn] P V O LX HZ.
  destruct (blocks_replace r X Y Z Y' [(k, x)] [] B) as [B' P']; trivial.
  - rewrite app_nil_r. exact P.
  - apply (once_cons r); trivial.
  - constructor; [exact Hq|constructor].
  - intros e e' [<-|[]] I. apply LX, I.
  - intros e e' I [<-|[]]. apply HZ, I.
  - rewrite app_nil_r in P'. auto.
Qed.

Lemma valid_in r X b Z : blocks_ok r (X ++ b :: Z) -> valid r b /\ items b <> [] /\ bfull b = default_size.
Proof. intros B. pose proof (each_valid _ _ B) as V. rewrite Forall_forall in V. apply V, in_or_app. right. left. reflexivity. Qed.

Lemma not_in_block X b Z k x : has_entry (its (X ++ b :: Z)) k x = false -> has_entry (items b) k x = false.
Proof. rewrite its_app, its_cons, !has_entry_app, !orb_false_iff. tauto. Qed.

(** Into a block with room. *)
Lemma put_spec r l X b Z k x : Forall2 node_ok l (X ++ b :: Z) -> blocks_ok r (X ++ b :: Z) -> fresh r (X ++ b :: Z) k x ->
  low k X -> high k Z -> is_memory_available b (length x) = true ->
  exists bs, Forall2 node_ok (update l (length X) (snd (append b k x))) bs /\ blocks_ok r bs /\
    Permutation (its bs) ((k, x) :: its (X ++ b :: Z)) /\ (memory l -> memory (update l (length X) (snd (append b k x)))).
Proof.
  intros H B F LX HZ A. destruct (valid_in _ _ _ _ B) as (V & N & Fu).
  rewrite (available_spec r b k x V) in A. apply Nat.leb_le in A.
  destruct (append_one r b k x V (fresh_key _ _ _ _ F) (fresh_nonempty _ _ _ _ F)) as (_ & P & V' & Fu'); trivial.
  { apply (not_in_block X b Z), (fresh_new _ _ _ _ F). }
  destruct (update_spec l X b (snd (append b k x)) Z H) as (U1 & _ & U2).
  exists (X ++ [snd (append b k x)] ++ Z). split; [exact U1|].
  destruct (add_blocks r X [b] Z [snd (append b k x)] k x B F) as [B' P']; trivial.
  - rewrite !its_cons. cbn [its map concat]. rewrite !app_nil_r. exact P.
  - constructor; [|constructor]. split; [exact V'|]. split; [|rewrite Fu'; exact Fu]. intros E. rewrite E in P. apply Permutation_nil in P. discriminate.
  - repeat constructor.
  - auto.
Qed.

(** A new block. *)
Lemma put_new_spec r l X Z k x : Forall2 node_ok l (X ++ Z) -> blocks_ok r (X ++ Z) -> fresh r (X ++ Z) k x -> low k X -> high k Z ->
  exists bs, Forall2 node_ok (insert_nth (length X) (new_node (new_block k x)) l) bs /\ blocks_ok r bs /\
    Permutation (its bs) ((k, x) :: its (X ++ Z)) /\ (memory l -> memory (insert_nth (length X) (new_node (new_block k x)) l)).
Proof.
  intros H B F LX HZ. destruct (new_block_spec r k x) as (I & V & Fu); try apply F.
  destruct (insert_spec l X (new_block k x) Z H) as [U1 U2].
  exists (X ++ [new_block k x] ++ Z). split; [exact U1|].
  destruct (add_blocks r X [] Z [new_block k x] k x B F) as [B' P']; trivial.
  - rewrite its_cons, I. reflexivity.
  - constructor; [|constructor]. rewrite I. split; [exact V|]. split; [discriminate|exact Fu].
  - repeat constructor.
  - auto.
Qed.

(** Splitting a block without room. *)
Lemma split_put_spec r l X b Z k x : Forall2 node_ok l (X ++ b :: Z) -> blocks_ok r (X ++ b :: Z) -> fresh r (X ++ b :: Z) k x ->
  low k X -> high k Z -> is_memory_available b (length x) = false ->
  exists l' bs, split_node l (length X) b k x = Ok l' /\ Forall2 node_ok l' bs /\ blocks_ok r bs /\
    Permutation (its bs) ((k, x) :: its (X ++ b :: Z)) /\ (memory l -> memory l').
Proof.
  intros H B F LX HZ A. destruct (valid_in _ _ _ _ B) as (V & N & Fu).
  rewrite (available_spec r b k x V) in A. apply Nat.leb_gt in A.
  pose proof default_big as D. pose proof (fresh_small _ _ _ _ F) as Q.
  assert (Qs : Forall (fun e => quarter (bfull b) (snd e)) (items b)).
  { pose proof (each_small _ _ B) as Sm. rewrite its_app, its_cons, !Forall_app in Sm. rewrite Fu. tauto. }
  destruct (split_append_spec r b k x V (fresh_key _ _ _ _ F) (fresh_nonempty _ _ _ _ F)) as (t & f & s & E & P & Vt & Vf & Vs & A1 & A2 & A3 & F1 & F2 & F3 & G).
  { apply (not_in_block X b Z), (fresh_new _ _ _ _ F). }
  { unfold quarter in Q. lia. }
  rewrite (quarter_estimate r b k x V Qs) in P by (rewrite ?Fu; trivial; rewrite <- Fu; trivial).
  destruct G as (G1 & G2 & G3); [exact Qs|rewrite Fu; exact Q|exact A|].
  assert (Ff : bfull f = default_size).
  { destruct F2 as [F2|F2]; [congruence|]. rewrite F2. apply align_small; unfold quarter in Q; lia. }
  unfold split_node. rewrite E. cbn [rbind].
  destruct (update_spec l X b t Z H) as (U1 & _ & U2).
  assert (LX1 : length X + 1 = length (X ++ [t])) by (rewrite app_length; reflexivity).
  replace (X ++ t :: Z) with ((X ++ [t]) ++ Z) in U1 by (rewrite <- app_assoc; reflexivity).
  assert (S : exists l2 Y2, match s with Some s => insert_nth (length X + 1) (new_node s) (update l (length X) t) | None => update l (length X) t end = l2 /\
    Y2 = match s with Some b' => [b'] | None => [] end /\
    Forall2 node_ok l2 ((X ++ [t]) ++ Y2 ++ Z) /\ (memory l -> memory l2)).
  { eexists _, _. split; [reflexivity|]. split; [reflexivity|]. destruct s as [s|].
    - rewrite LX1. destruct (insert_spec _ _ s _ U1) as [U3 U4]. auto.
    - auto. }
  destruct S as (l2 & Y2 & -> & EY & U3 & U4). rewrite LX1.
  destruct (insert_spec _ _ f _ U3) as [U5 U6].
  eexists _, (X ++ ([t; f] ++ Y2) ++ Z). split; [reflexivity|].
  split; [rewrite <- !app_assoc in *; exact U5|].
  destruct (add_blocks r X [b] Z ([t; f] ++ Y2) k x B F) as [B' P']; trivial.
  - rewrite its_app, !its_cons. change (its []) with (@nil (pval * list byte)). rewrite !app_nil_r, <- !app_assoc.
    replace (its Y2) with (items_opt s); [exact P|]. subst Y2. destruct s; [cbn; rewrite app_nil_r|]; reflexivity.
  - assert (Ft : bfull t = default_size) by (rewrite F1; exact Fu).
    constructor; [exact (conj Vt (conj G1 Ft))|]. constructor; [exact (conj Vf (conj G2 Ff))|].
    subst Y2. destruct s as [s|]; constructor; [|constructor].
    split; [exact (Vs s eq_refl)|]. split; [exact (G3 s eq_refl)|]. rewrite (F3 s eq_refl). exact Fu.
  - clear - EY A1 A2 A3. subst Y2. destruct s as [s|]; cbn [app]; repeat (constructor; trivial).
  - split; [exact B'|]. split; [exact P'|]. auto.
Qed.

Lemma blocks_block r X Y Z : blocks_ok r (X ++ Y ++ Z) -> Forall (fun b => valid r b /\ items b <> [] /\ bfull b = default_size) Y.
Proof. intros B. pose proof (each_valid _ _ B) as V. rewrite !Forall_app in V. tauto. Qed.

Lemma look_for_spec r k x Y : forall l bs X Z ke, Forall2 node_ok l bs -> blocks_ok r bs -> exact r k -> bs = X ++ Y ++ Z ->
  exists ke' l', look_for l k x (length X) (length Y) ke = Ok (has_entry (its Y) k x, ke', l') /\
    Forall2 node_ok l' bs /\ length l' = length l /\ (memory l -> l' = l) /\
    (has_entry (its Y) k x = false -> ke' = ke || has_key (its Y) k).
Proof.
  induction Y as [|b Y IH]; intros l bs X Z ke H B Hk E.
  - exists ke, l. cbn. rewrite orb_false_r. auto.
  - cbn [length look_for]. rewrite E in *. change (X ++ (b :: Y) ++ Z) with (X ++ b :: Y ++ Z) in *.
    destruct (valid_in _ _ _ _ B) as (V & _ & _). destruct (load_spec r l X b (Y ++ Z) H V) as (l1 & E1 & H1 & L1 & M1).
    rewrite E1. cbn [rbind]. destruct (lookup_spec r b k V Hk) as (C1 & C2 & _). rewrite C1, C2. rewrite its_cons, has_entry_app, has_key_app.
    destruct (has_entry (items b) k x) eqn:He.
    + eexists _, l1. split; [reflexivity|]. split; [exact H1|]. split; [exact L1|]. split; [exact M1|]. discriminate.
    + destruct (IH l1 (X ++ b :: Y ++ Z) (X ++ [b]) Z (ke || has_key (items b) k)) as (ke' & l' & E2 & H2 & L2 & M2 & K2); trivial.
      { rewrite <- app_assoc. reflexivity. }
      rewrite app_length in E2. cbn [length] in E2. exists ke', l'. rewrite E2. split; [reflexivity|]. split; [exact H2|]. split; [congruence|].
      split.
      * intros Me. rewrite M2; [auto|]. rewrite M1; trivial.
      * cbn [orb]. intros Q. rewrite (K2 Q), orb_assoc. reflexivity.
Qed.

Lemma place_exists r bs L M R k : cut_at r k bs L M R -> blocks_ok r bs -> exact r k -> bs <> [] ->
  exists X b Z, bs = X ++ b :: Z /\ low k X /\ high k Z /\ length X = (if length L =? length bs then length L - 1 else length L).
Proof.
  intros C B Hk N. pose proof (cut_eq _ _ _ _ _ _ C) as E.
  pose proof (each_valid _ _ B) as V. rewrite E, !Forall_app in V. destruct V as (VL & VM & VR).
  assert (LL : low k L).
  { intros e I. apply its_in in I. destruct I as (b & I & Ie). pose proof (cut_low _ _ _ _ _ _ C) as Q. rewrite Forall_forall in Q, VL.
    destruct (VL b I) as (Vb & _). apply (less_asym r); trivial; [apply (items_exact r b e Vb Ie)|]. apply (low_keys r k b Vb Hk (Q b I) e Ie). }
  assert (HR : high k R).
  { intros e I. apply its_in in I. destruct I as (b & I & Ie). pose proof (cut_high _ _ _ _ _ _ C) as Q. rewrite Forall_forall in Q, VR.
    destruct (VR b I) as (Vb & _). apply (less_asym r); trivial; [apply (items_exact r b e Vb Ie)|]. apply (high_keys r k b Vb Hk (Q b I) e Ie). }
  destruct (Nat.eqb_spec (length L) (length bs)) as [EL|EL].
  - assert (EMR : M ++ R = []) by (rewrite E, !app_length in EL; destruct M, R; cbn in *; trivial; lia).
    rewrite EMR, app_nil_r in E. subst L. destruct (exists_last N) as (X & b & ->). exists X, b, [].
    split; [reflexivity|]. apply low_app in LL. split; [tauto|]. split; [intros e []|]. rewrite app_length. cbn. lia.
  - destruct M as [|b M].
    + destruct R as [|b R]; [rewrite E, app_nil_r in EL; contradiction|]. exists L, b, R. split; [exact E|]. split; [exact LL|]. split; [|reflexivity].
      apply high_cons in HR. tauto.
    + exists L, b, (M ++ R). split; [exact E|]. split; [exact LL|]. split; [|reflexivity]. apply high_app. split; [|exact HR].
      pose proof (cut_mid _ _ _ _ _ _ C) as Q. inversion_clear Q as [|? ? [Q1 Q2] Q3]. inversion_clear VM as [|? ? (Vb & Nb & _) VM'].
      destruct (bounds_spec r b Vb Nb) as ((y & Iy) & _ & _). intros e I. apply its_in in I. destruct I as (b' & I & Ie).
      rewrite Forall_forall in VM'. destruct (VM' b' I) as (Vb' & _).
      pose proof (in_order _ _ B) as O. rewrite E in O. apply fop_app in O. destruct O as (_ & O & _). inversion_clear O as [|? ? O1 _].
      rewrite Forall_forall in O1. assert (I' : In b' (M ++ R)) by (apply in_or_app; auto). pose proof (O1 b' I' e _ Ie Iy) as O2. cbn [fst] in O2.
      apply (le_trans r (fst e) (max_index b) k); trivial; [apply (items_exact r b' e Vb' Ie)|apply (items_exact r b _ Vb Iy)].
Qed.

Lemma place_item_spec r l X b Z k x : Forall2 node_ok l (X ++ b :: Z) -> blocks_ok r (X ++ b :: Z) -> fresh r (X ++ b :: Z) k x ->
  low k X -> high k Z ->
  exists l' bs, place_item l k x (length X) = Ok l' /\ Forall2 node_ok l' bs /\ blocks_ok r bs /\
    Permutation (its bs) ((k, x) :: its (X ++ b :: Z)) /\ (memory l -> memory l').
Proof.
  intros H B F LX HZ. destruct (valid_in _ _ _ _ B) as (V & N & Fu). unfold place_item.
  destruct (load_spec r l X b Z H V) as (l1 & E1 & H1 & L1 & M1). rewrite E1. cbn [rbind].
  assert (MM : memory l -> memory l1) by (intros Me; rewrite M1; trivial).
  pose proof (fresh_key _ _ _ _ F) as Hk.
  destruct (is_memory_available b (length x)) eqn:A.
  { destruct (put_spec r l1 X b Z k x H1 B F LX HZ A) as (bs & Q1 & Q2 & Q3 & Q4). eexists _, bs. split; [reflexivity|]. auto 10. }
  destruct (bounds_spec r b V N) as ((y1 & I1) & (y2 & I2) & BB).
  destruct (less_equal (max_index b) k) eqn:LE.
  { assert (LX' : low k (X ++ [b])).
    { apply low_app. split; [exact LX|]. apply low_one. intros e I. unfold less_equal, greater in LE. apply negb_true_iff in LE.
      apply (le_trans r k (max_index b) (fst e)); trivial; [apply (items_exact r b _ V I1)|apply (items_exact r b _ V I)|apply (BB e I)]. }
    assert (LN : length l1 = length X + 1 + length Z) by (rewrite (forall2_length _ _ _ H1), app_length; cbn; lia).
    destruct Z as [|b' Z].
    - replace (length X + 1 =? length l1) with true by (symmetry; apply Nat.eqb_eq; rewrite LN; cbn; lia).
      assert (Q : l1 ++ [new_node (new_block k x)] = insert_nth (length (X ++ [b])) (new_node (new_block k x)) (l1 ++ [])).
      { rewrite <- insert_nth_app. rewrite app_nil_r, <- (forall2_length _ _ _ H1). reflexivity. }
      rewrite Q. destruct (put_new_spec r (l1 ++ []) (X ++ [b]) [] k x) as (bs & Q1 & Q2 & Q3 & Q4); rewrite ?app_nil_r; trivial.
      rewrite !app_nil_r in *. eexists _, bs. split; [reflexivity|]. auto 10.
    - replace (length X + 1 =? length l1) with false by (symmetry; apply Nat.eqb_neq; rewrite LN; cbn; lia).
      assert (EX : length X + 1 = length (X ++ [b])) by (rewrite app_length; reflexivity). rewrite EX.
      replace (X ++ b :: b' :: Z) with ((X ++ [b]) ++ b' :: Z) in * by (rewrite <- app_assoc; reflexivity).
      destruct (valid_in _ _ _ _ B) as (V' & N' & Fu'). destruct (load_spec r l1 _ b' Z H1 V') as (l2 & E2 & H2 & L2 & M2). rewrite E2. cbn [rbind].
      assert (MM2 : memory l -> memory l2) by (intros Me; rewrite M2; auto).
      destruct (is_memory_available b' (length x)) eqn:A'.
      + apply high_cons in HZ. destruct (put_spec r l2 _ b' Z k x H2 B F LX' (proj2 HZ) A') as (bs & Q1 & Q2 & Q3 & Q4).
        eexists _, bs. split; [reflexivity|]. auto 10.
      + destruct (put_new_spec r l2 (X ++ [b]) (b' :: Z) k x H2 B F LX' HZ) as (bs & Q1 & Q2 & Q3 & Q4). eexists _, bs. split; [reflexivity|]. auto 10. }
  destruct (nth_error l1 (length X)) as [n|] eqn:En.
  2: { apply nth_error_None in En. rewrite (forall2_length _ _ _ H1), app_length in En. cbn in En. lia. }
  assert (Hn : node_ok n b).
  { destruct (forall2_split _ _ _ _ H1) as (n1 & n2 & -> & _ & Hz & LL). rewrite <- LL in En. inversion Hz; subst. rewrite nth_error_mid in En. congruence. }
  rewrite (node_min _ _ Hn). destruct (greater_equal (min_index b) k) eqn:GE.
  { assert (HZ' : high k (b :: Z)).
    { apply high_cons. split; [|exact HZ]. apply high_one. intros e I. unfold greater_equal in GE. apply negb_true_iff in GE.
      apply (le_trans r (fst e) (min_index b) k); trivial; [apply (items_exact r b _ V I)|apply (items_exact r b _ V I2)|apply (BB e I)]. }
    destruct X as [|b0 X0].
    - cbn [length Nat.eqb]. destruct (put_new_spec r l1 [] (b :: Z) k x H1 B F LX HZ') as (bs & Q1 & Q2 & Q3 & Q4). eexists _, bs. split; [reflexivity|]. auto 10.
    - destruct (@exists_last _ (b0 :: X0)) as (X & b' & EX); [discriminate|]. rewrite EX in *. clear EX b0 X0.
      replace (length (X ++ [b']) =? 0) with false by (symmetry; apply Nat.eqb_neq; rewrite app_length; cbn; lia).
      replace (length (X ++ [b']) - 1) with (length X) by (rewrite app_length; cbn; lia).
      replace ((X ++ [b']) ++ b :: Z) with (X ++ b' :: b :: Z) in * by (rewrite <- app_assoc; reflexivity).
      apply low_app in LX. destruct LX as [LX _].
      destruct (valid_in _ _ _ _ B) as (V' & N' & Fu'). destruct (load_spec r l1 _ b' (b :: Z) H1 V') as (l2 & E2 & H2 & L2 & M2). rewrite E2. cbn [rbind].
      assert (MM2 : memory l -> memory l2) by (intros Me; rewrite M2; auto).
      destruct (is_memory_available b' (length x)) eqn:A'.
      + destruct (put_spec r l2 _ b' (b :: Z) k x H2 B F LX HZ' A') as (bs & Q1 & Q2 & Q3 & Q4).
        eexists _, bs. split; [reflexivity|]. auto 10.
      + destruct (split_put_spec r l2 X b' (b :: Z) k x H2 B F LX HZ' A') as (l' & bs & Q0 & Q1 & Q2 & Q3 & Q4). exists l', bs. auto 10. }
  destruct (split_put_spec r l1 X b Z k x H1 B F LX HZ A) as (l' & bs & Q0 & Q1 & Q2 & Q3 & Q4). exists l', bs. auto 10.
Qed.

Lemma u64_add a b : u64 (u64 a + b) = u64 (a + b).
Proof. unfold u64. apply Zplus_mod_idemp_l. Qed.
Lemma u64_sub a b : u64 (u64 a - b) = u64 (a - b).
Proof. unfold u64. apply Zminus_mod_idemp_l. Qed.

Lemma entry_key l k x : has_entry l k x = true -> has_key l k = true.
Proof.
  intros H. apply has_entry_in in H. destruct H as (e & I & E & _). apply existsb_exists. eauto.
Qed.

Lemma has_key_perm l l' k : Permutation l l' -> has_key l k = has_key l' k.
Proof. apply existsb_perm. Qed.

Lemma firstn_min {A} (M R : list A) : exists R1 R2, R = R1 ++ R2 /\ length (M ++ R1) = Nat.min (length M + 1) (length (M ++ R)) /\ length R1 <= 1.
Proof.
  destruct R as [|a R].
  - exists [], []. rewrite !app_nil_r. split; [reflexivity|]. split; cbn; lia.
  - exists [a], R. split; [reflexivity|]. rewrite !app_length. cbn. lia.
Qed.

Lemma append_tree r t l k x : tree_holds r t l -> exact r k -> x <> [] -> quarter default_size x ->
  exists t', seg_append t k x = Ok (negb (has_entry l k x), t') /\ tree_holds r t' (if has_entry l k x then l else (k, x) :: l) /\
    (all_in_memory t -> all_in_memory t') /\
    ucount t' = if has_key l k then ucount t else u64 (ucount t + 1).
Proof.
  intros (bs & H & B & P & Ic) Hk Hx Hq. unfold seg_append. destruct (nodes t) as [|n0 ns] eqn:En.
  - inversion H; subst. apply Permutation_nil in P. subst l. cbn [has_entry existsb negb].
    eexists. split; [reflexivity|]. destruct (new_block_spec r k x Hk Hx Hq) as (I & V & Fu). split; [|split].
    + exists [new_block k x]. cbn [nodes icount]. split; [|split; [|split]].
      * constructor; [|constructor]. constructor; cbn; auto. intros [Q|Q]; discriminate Q.
      * constructor.
        -- constructor; [|constructor]. rewrite I. split; [exact V|]. split; [discriminate|exact Fu].
        -- repeat constructor.
        -- rewrite its_cons, I. repeat constructor.
        -- rewrite its_cons, I. repeat constructor. exact Hq.
      * rewrite its_cons, I. reflexivity.
      * rewrite Ic, u64_add. reflexivity.
    + intros _. constructor; [discriminate|constructor].
    + reflexivity.
  - assert (N : bs <> []) by (intros ->; inversion H). rewrite <- En in H |- *. clear n0 ns En.
    destruct (cut_exists r _ bs k H B Hk) as (L & M & R & C & Fr). rewrite Fr.
    pose proof (cut_eq _ _ _ _ _ _ C) as E. destruct (firstn_min M R) as (R1 & R2 & ER & LR & _).
    rewrite (forall2_length _ _ _ H).
    replace (Nat.min (length L + length M + 1) (length bs) - length L) with (length (M ++ R1))
      by (rewrite LR, E; rewrite !app_length in *; lia).
    assert (E' : bs = L ++ (M ++ R1) ++ R2) by (rewrite E, ER, <- app_assoc; reflexivity).
    destruct (look_for_spec r k x (M ++ R1) (nodes t) bs L R2 false H B Hk E') as (ke & l1 & E1 & H1 & L1 & M1 & K1).
    rewrite E1. cbn [rbind].
    destruct (cut_no_key r k bs L M R C B Hk) as [NL NR].
    assert (HE : has_entry (its (M ++ R1)) k x = has_entry l k x).
    { rewrite <- (has_entry_perm _ _ k x P), (cut_has_entry r k bs L M R x C B Hk), its_app, has_entry_app, (has_entry_its R1).
      rewrite (existsb_false _ R1); [apply orb_false_r|]. intros b I. apply NR. rewrite ER. apply in_or_app. auto. }
    assert (HK : has_key (its (M ++ R1)) k = has_key l k).
    { rewrite <- (has_key_perm _ _ k P), E, ER, !its_app, !has_key_app, !has_key_its.
      rewrite (existsb_false _ L), (existsb_false _ R2); [rewrite orb_false_r; reflexivity| |].
      - intros b I. apply NR. rewrite ER. apply in_or_app. auto.
      - intros b I. apply (NL b I). }
    rewrite HE, HK in *. destruct (has_entry l k x) eqn:He.
    + eexists. split; [reflexivity|]. cbn [ucount]. rewrite (entry_key l k x He). split; [exists bs; auto|]. split; [|reflexivity].
      intros Me. unfold all_in_memory in *. cbn [nodes]. rewrite M1; trivial.
    + destruct (place_exists r bs L M R k C B Hk N) as (X & b & Z & EX & LX & HZ & LenX).
      rewrite (forall2_length _ _ _ H1), <- LenX. rewrite EX in *.
      destruct (place_item_spec r l1 X b Z k x H1 B) as (l' & bs' & Q0 & Q1 & Q2 & Q3 & Q4); trivial.
      { constructor; trivial. rewrite (has_entry_perm _ _ k x P). exact He. }
      rewrite Q0. cbn [rbind]. eexists. split; [reflexivity|]. split; [|split].
      * exists bs'. cbn [nodes icount]. split; [exact Q1|]. split; [exact Q2|]. split; [rewrite Q3, P; reflexivity|].
        rewrite Ic, u64_add. cbn [length]. f_equal. lia.
      * intros Me. unfold all_in_memory in *. cbn [nodes]. apply Q4. rewrite M1; trivial.
      * cbn [ucount]. rewrite (K1 eq_refl). cbn [orb]. reflexivity.
Qed.

(** * Removing an item *)
Lemma its_exact r bs e : blocks_ok r bs -> In e (its bs) -> exact r (fst e).
Proof.
  intros B I. apply its_in in I. destruct I as (b & I & Ie). pose proof (each_valid _ _ B) as V. rewrite Forall_forall in V.
  destruct (V b I) as (Vb & _). apply (items_exact r b e Vb Ie).
Qed.

Lemma is_entry_iff k x e : is_entry k x e = true <-> equal k (fst e) = true /\ x = snd e.
Proof.
  unfold is_entry. rewrite andb_true_iff. destruct (list_eq_dec ascii_dec x (snd e)); split; intros [H1 H2]; auto; discriminate.
Qed.

Lemma entry_trans r k x e e' : exact r k -> exact r (fst e) -> exact r (fst e') ->
  is_entry k x e = true -> is_entry k x e' = true -> is_entry (fst e) (snd e) e' = true.
Proof.
  intros Hk He He'. rewrite !is_entry_iff. intros [H1 ->] [H2 H3]. split; trivial.
  rewrite <- (equal_equal r k (fst e) (fst e')); trivial.
Qed.

(** An item stored once: what is left without it. *)
Lemma entry_split r l k x : Forall (fun e => exact r (fst e)) l -> exact r k -> once l -> has_entry l k x = true ->
  exists l1 e l2, l = l1 ++ e :: l2 /\ is_entry k x e = true /\ filter (fun e => negb (is_entry k x e)) l = l1 ++ l2.
Proof.
  intros F Hk O H. apply existsb_exists in H. destruct H as (e & I & E). apply in_split in I. destruct I as (l1 & l2 & ->).
  exists l1, e, l2. split; [reflexivity|]. split; [exact E|]. rewrite filter_app. cbn [filter]. rewrite E. cbn [negb].
  rewrite Forall_app in F. destruct F as [F1 F2]. inversion_clear F2 as [|? ? Fe F3].
  apply fop_app in O. destruct O as (O1 & O2 & O3). inversion_clear O2 as [|? ? O4 O5]. rewrite Forall_forall in *.
  rewrite !filter_all; trivial; intros e' I; apply negb_true_iff; destruct (is_entry k x e') eqn:E'; trivial.
  - specialize (O4 e' I). pose proof (entry_trans r k x e e' Hk Fe (F3 e' I) E E'). congruence.
  - pose proof (O3 e' e I (or_introl eq_refl)) as Q. cbn beta in Q. pose proof (entry_trans r k x e' e Hk (F1 e' I) Fe E' E). congruence.
Qed.

Lemma find_item_spec r k x Y : forall l bs X Z, Forall2 node_ok l bs -> blocks_ok r bs -> exact r k -> bs = X ++ Y ++ Z ->
  has_entry (its Y) k x = true ->
  exists X' b Z' l', find_item l k x (length X) (length Y) = Ok (length X', b, true, l') /\ bs = X' ++ b :: Z' /\
    has_entry (items b) k x = true /\ Forall2 node_ok l' bs /\ (memory l -> l' = l).
Proof.
  induction Y as [|b Y IH]; intros l bs X Z H B Hk E He; [discriminate|].
  cbn [length find_item]. rewrite E in *. change (X ++ (b :: Y) ++ Z) with (X ++ b :: Y ++ Z) in *.
  destruct (valid_in _ _ _ _ B) as (V & _ & _). destruct (load_spec r l X b (Y ++ Z) H V) as (l1 & E1 & H1 & L1 & M1).
  rewrite E1. cbn [rbind]. destruct (lookup_spec r b k V Hk) as (C1 & _). rewrite C1. rewrite its_cons, has_entry_app in He.
  destruct (has_entry (items b) k x) eqn:Hb.
  - exists X, b, (Y ++ Z), l1. auto 10.
  - cbn [orb] in He. destruct Y as [|b2 Y]; [discriminate|]. cbn [length] in *.
    destruct (IH l1 (X ++ b :: (b2 :: Y) ++ Z) (X ++ [b]) Z) as (X' & b' & Z' & l' & E2 & E3 & H2 & H3 & M3); trivial.
    { rewrite <- app_assoc. reflexivity. }
    rewrite app_length in E2. cbn [length] in E2. rewrite E2. exists X', b', Z', l'. split; [reflexivity|]. split; [exact E3|].
    split; [exact H2|]. split; [exact H3|]. intros Me. rewrite M3; [auto|]. rewrite M1; trivial.
Qed.

Lemma disjoint_blocks r X b c Z : blocks_ok r (X ++ b :: c :: Z) ->
  above (items c) (items b) /\ (forall e, In e (items c) -> has_entry (items b) (fst e) (snd e) = false).
Proof.
  intros B. split.
  - pose proof (in_order _ _ B) as O. apply fop_app in O. destruct O as (_ & O & _). inversion_clear O as [|? ? O1 _]. inversion_clear O1. trivial.
  - intros e I. destruct (has_entry (items b) (fst e) (snd e)) eqn:H; trivial. apply existsb_exists in H. destruct H as (e' & I' & E').
    pose proof (each_once _ _ B) as O. rewrite its_app, !its_cons in O. apply fop_app in O. destruct O as (_ & O & _).
    apply fop_app in O. destruct O as (_ & _ & O). rewrite is_entry_sym in E'. rewrite (O e' e I') in E'; [discriminate|]. apply in_or_app. auto.
Qed.

(** Two neighbours become one. *)
Lemma join_spec r X b c Z : blocks_ok r (X ++ b :: c :: Z) -> occupied_memory c <= bavail b ->
  exists m, merge b c = Ok m /\ blocks_ok r (X ++ m :: Z) /\ Permutation (its (X ++ m :: Z)) (its (X ++ b :: c :: Z)).
Proof.
  intros B A. destruct (disjoint_blocks r X b c Z B) as [D1 D2].
  destruct (valid_in _ _ _ _ B) as (V & N & Fu).
  assert (B2 : blocks_ok r ((X ++ [b]) ++ c :: Z)) by (rewrite <- app_assoc; exact B).
  destruct (valid_in _ _ _ _ B2) as (Vc & Nc & Fuc).
  destruct (merge_spec r b c V Vc N D1 D2) as (m & E & I & Vm & Fm).
  { pose proof (room_app (items c) (items b)) as RA. rewrite (room_items r b V), (room_items r c Vc) in RA.
    pose proof (valid_space _ _ V). pose proof (valid_space _ _ Vc). unfold occupied_memory, header_size in A. lia. }
  exists m. split; [exact E|].
  destruct (blocks_replace r X [b; c] Z [m] [] [] B) as [B' P']; trivial.
  - rewrite !its_cons, I. change (its []) with (@nil (pval * list byte)). rewrite !app_nil_r. apply (Permutation_app_comm (items c) (items b)).
  - constructor; [|constructor]. split; [exact Vm|]. split; [|rewrite Fm; exact Fu]. rewrite I. intros Q. apply app_eq_nil in Q. tauto.
  - repeat constructor.
  - apply (each_once _ _ B).
  - intros e e' [].
  - intros e e' _ [].
  - split; [exact B'|]. rewrite app_nil_r in P'. exact P'.
Qed.

Lemma merge_around_spec r sparse l X b Z : Forall2 node_ok l (X ++ b :: Z) -> blocks_ok r (X ++ b :: Z) ->
  exists l' bs, merge_around sparse l (length X) b = Ok l' /\ Forall2 node_ok l' bs /\ blocks_ok r bs /\
    Permutation (its bs) (its (X ++ b :: Z)) /\ (memory l -> memory l').
Proof.
  intros H B. unfold merge_around. destruct (sparse (bavail b) (bfull b)); cbn [negb].
  2: { exists l, (X ++ b :: Z). auto. }
  assert (S1 : exists p l1, (if length X =? 0 then Ok (None, l) else do '(x, l) <- load_at l (length X - 1); Ok (Some x, l)) = Ok (p, l1) /\
    (p = None \/ exists X' a, p = Some a /\ X = X' ++ [a]) /\ Forall2 node_ok l1 (X ++ b :: Z) /\ (memory l -> memory l1)).
  { destruct X as [|x0 X0]; [exists None, l; cbn; auto|].
    destruct (@exists_last _ (x0 :: X0)) as (X' & a & EX); [discriminate|]. rewrite EX in *.
    replace (length (X' ++ [a]) =? 0) with false by (symmetry; apply Nat.eqb_neq; rewrite app_length; cbn; lia).
    replace (length (X' ++ [a]) - 1) with (length X') by (rewrite app_length; cbn; lia).
    replace ((X' ++ [a]) ++ b :: Z) with (X' ++ a :: b :: Z) in * by (rewrite <- app_assoc; reflexivity).
    destruct (valid_in _ _ _ _ B) as (Va & _ & _). destruct (load_spec r l _ a (b :: Z) H Va) as (l1 & E1 & H1 & _ & M1). rewrite E1. cbn [rbind].
    exists (Some a), l1. split; [reflexivity|]. split; [right; eauto|]. split; [exact H1|]. intros Me. rewrite M1; trivial. }
  destruct S1 as (prev & l1 & -> & Hp & H1 & M1). cbn [rbind].
  assert (S2 : exists p l2, (if length X + 1 =? length l1 then Ok (None, l1) else do '(x, l) <- load_at l1 (length X + 1); Ok (Some x, l)) = Ok (p, l2) /\
    (p = None \/ exists c Z', p = Some c /\ Z = c :: Z') /\ Forall2 node_ok l2 (X ++ b :: Z) /\ (memory l1 -> memory l2)).
  { pose proof (forall2_length _ _ _ H1) as LL. rewrite app_length in LL. cbn [length] in LL. destruct Z as [|c Z].
    - replace (length X + 1 =? length l1) with true by (symmetry; apply Nat.eqb_eq; cbn in LL; lia). exists None, l1. auto.
    - replace (length X + 1 =? length l1) with false by (symmetry; apply Nat.eqb_neq; cbn in LL; lia).
      replace (length X + 1) with (length (X ++ [b])) by (rewrite app_length; reflexivity).
      assert (B2 : blocks_ok r ((X ++ [b]) ++ c :: Z)) by (rewrite <- app_assoc; exact B).
      assert (H2 : Forall2 node_ok l1 ((X ++ [b]) ++ c :: Z)) by (rewrite <- app_assoc; exact H1).
      destruct (valid_in _ _ _ _ B2) as (Vc & _ & _). destruct (load_spec r l1 _ c Z H2 Vc) as (l2 & E2 & H3 & _ & M2). rewrite E2. cbn [rbind].
      exists (Some c), l2. split; [reflexivity|]. split; [right; eauto|]. rewrite <- app_assoc in H3. split; [exact H3|]. intros Me. rewrite M2; trivial. }
  destruct S2 as (next & l2 & -> & Hq & H2 & M2). cbn [rbind].
  assert (S3 : exists l' bs, match prev with
      | Some x => if occupied_memory b <=? bavail x then do m <- merge x b; Ok (erase (length X) (length X + 1) (update l2 (length X - 1) m)) else Ok l2
      | None => Ok l2 end = Ok l' /\ Forall2 node_ok l' bs /\ blocks_ok r bs /\
    Permutation (its bs) (its (X ++ b :: Z)) /\ (memory l -> memory l')).
  { destruct Hp as [->|(X' & a & -> & ->)]; [exists l2, (X ++ b :: Z); auto 10|].
    destruct (occupied_memory b <=? bavail a) eqn:A; [|exists l2, ((X' ++ [a]) ++ b :: Z); auto 10]. apply Nat.leb_le in A.
    replace ((X' ++ [a]) ++ b :: Z) with (X' ++ a :: b :: Z) in * by (rewrite <- app_assoc; reflexivity).
    destruct (join_spec r X' a b Z B A) as (m & -> & B' & P'). cbn [rbind].
    replace (length (X' ++ [a]) - 1) with (length X') by (rewrite app_length; cbn; lia).
    destruct (update_spec l2 X' a m (b :: Z) H2) as (U1 & _ & U2).
    replace (X' ++ m :: b :: Z) with ((X' ++ [m]) ++ [b] ++ Z) in U1 by (rewrite <- app_assoc; reflexivity).
    replace (length (X' ++ [a])) with (length (X' ++ [m])) by (rewrite !app_length; reflexivity).
    destruct (erase_spec _ _ _ _ U1) as [U3 U4].
    eexists _, ((X' ++ [m]) ++ Z). split; [reflexivity|]. split; [exact U3|]. rewrite <- app_assoc. split; [exact B'|]. split; [exact P'|]. auto 10. }
  destruct Hq as [->|(c & Z' & -> & ->)]; [exact S3|].
  destruct (occupied_memory c <=? bavail b) eqn:A; [|exact S3]. clear S3 Hp. apply Nat.leb_le in A.
  destruct (join_spec r X b c Z' B A) as (m & -> & B' & P'). cbn [rbind].
  destruct (update_spec l2 X b m (c :: Z') H2) as (U1 & _ & U2).
  replace (X ++ m :: c :: Z') with ((X ++ [m]) ++ [c] ++ Z') in U1 by (rewrite <- app_assoc; reflexivity).
  replace (length X + 2) with (length (X ++ [m]) + 1) by (rewrite app_length; cbn; lia).
  replace (length X + 1) with (length (X ++ [m])) by (rewrite app_length; reflexivity).
  destruct (erase_spec _ _ _ _ U1) as [U3 U4].
  eexists _, ((X ++ [m]) ++ Z'). split; [reflexivity|]. split; [exact U3|]. rewrite <- app_assoc. split; [exact B'|]. split; [exact P'|]. auto 10.
Qed.

Lemma filter_perm_split {A} (f : A -> bool) l : Permutation (filter (fun x => negb (f x)) l ++ filter f l) l.
Proof.
  induction l as [|a l IH]; [reflexivity|]. cbn [filter]. destruct (f a); cbn [negb].
  - rewrite <- Permutation_middle. constructor. exact IH.
  - cbn [app]. constructor. exact IH.
Qed.

(** Taking items away from blocks in the middle. *)
Lemma take_blocks r X Y Z Y' f : blocks_ok r (X ++ Y ++ Z) -> its Y' = filter (fun e => negb (f e)) (its Y) ->
  Forall (fun b => valid r b /\ items b <> [] /\ bfull b = default_size) Y' ->
  ForallOrdPairs (fun b b' => above (items b') (items b)) Y' ->
  (forall e, In e (its X) \/ In e (its Z) -> f e = false) ->
  blocks_ok r (X ++ Y' ++ Z) /\ its (X ++ Y' ++ Z) = filter (fun e => negb (f e)) (its (X ++ Y ++ Z)).
Proof.
  intros B E V O N. split.
  - destruct (blocks_replace r X Y Z Y' [] (filter f (its Y)) B) as [B' _]; trivial.
    + rewrite E. apply filter_perm_split.
    + apply (each_once _ _ B).
    + intros e e' [].
    + intros e e' _ [].
  - rewrite !its_app, !filter_app, E. f_equal; [|f_equal]; symmetry; apply filter_all; intros e I; apply negb_true_iff, N; auto.
Qed.

Lemma remove_tree r sparse t l k x : tree_holds r t l -> exact r k -> has_entry l k x = true ->
  exists t', seg_remove sparse t k x = Ok (true, t') /\ tree_holds r t' (filter (fun e => negb (is_entry k x e)) l) /\
    (all_in_memory t -> all_in_memory t').
Proof.
  intros (bs & H & B & P & Ic) Hk He. unfold seg_remove.
  rewrite <- (has_entry_perm _ _ k x P) in He.
  destruct (nodes t) as [|n0 ns] eqn:En.
  { inversion H; subst. discriminate. }
  rewrite <- En in H |- *. clear n0 ns En.
  destruct (cut_exists r _ bs k H B Hk) as (L & M & R & C & Fr). rewrite Fr.
  pose proof (cut_eq _ _ _ _ _ _ C) as E. pose proof He as He0.
  rewrite (cut_has_entry r k bs L M R x C B Hk) in He.
  destruct M as [|b0 M0]; [discriminate|]. set (M := b0 :: M0) in *.
  replace (length L =? length L + length M) with false by (symmetry; apply Nat.eqb_neq; cbn; lia).
  replace (length L + length M - length L) with (length M) by lia.
  destruct (find_item_spec r k x M _ bs L R H B Hk E He) as (X & b & Z & l1 & E1 & EX & Hb & H1 & M1). rewrite E1. cbn [rbind andb].
  clear E C Fr He E1. rewrite EX in *. clear EX bs M M0 b0 L R.
  destruct (valid_in _ _ _ _ B) as (V & N & Fu).
  assert (RS : removes_stored (items b) (Remove k x) = true) by (cbn [removes_stored]; rewrite Hb; reflexivity).
  destruct (remove_spec r b k x V Hk RS) as (_ & RI & RV & RF). cbn [bag_remove snd] in RI.
  set (b' := snd (remove b k x)) in *.
  assert (Fex : Forall (fun e => exact r (fst e)) (its (X ++ b :: Z))) by (apply Forall_forall; intros e I; apply (its_exact r _ e B I)).
  destruct (entry_split r _ k x Fex Hk (each_once _ _ B) He0) as (l1' & e0 & l2' & S1 & S2 & S3).
  assert (Len : length (filter (fun e => negb (is_entry k x e)) l) + 1 = length l).
  { rewrite <- (Permutation_length (Permutation_filter (fun e => negb (is_entry k x e)) _ _ P)), <- (Permutation_length P), S3, S1, !app_length. cbn. lia. }
  assert (Ic' : u64 (icount t - 1) = u64 (Z.of_nat (length (filter (fun e => negb (is_entry k x e)) l)))).
  { rewrite Ic, u64_sub. f_equal. lia. }
  assert (NX : forall e, In e (its X) \/ In e (its Z) -> is_entry k x e = false).
  { apply existsb_exists in Hb. destruct Hb as (eb & Ib & Eb). intros e I. destruct (is_entry k x e) eqn:Ee; trivial.
    pose proof (each_once _ _ B) as O. rewrite its_app, its_cons in O. apply fop_app in O. destruct O as (_ & O2 & O3). apply fop_app in O2. destruct O2 as (_ & _ & O4).
    assert (Xb : exact r (fst eb)) by (apply (items_exact r b eb V Ib)).
    rewrite its_app, its_cons in Fex. rewrite !Forall_app, !Forall_forall in Fex. destruct Fex as (F1 & _ & F3). destruct I as [I|I].
    - assert (Q : is_entry (fst e) (snd e) eb = false) by (apply O3; [exact I|apply in_or_app; auto]).
      rewrite (entry_trans r k x e eb) in Q; auto; discriminate.
    - assert (Q : is_entry (fst eb) (snd eb) e = false) by (apply O4; auto). rewrite (entry_trans r k x eb e) in Q; auto; discriminate. }
  change (X ++ b :: Z) with (X ++ [b] ++ Z) in B.
  assert (PF : forall Y', its (X ++ Y' ++ Z) = filter (fun e => negb (is_entry k x e)) (its (X ++ [b] ++ Z)) ->
    Permutation (its (X ++ Y' ++ Z)) (filter (fun e => negb (is_entry k x e)) l)).
  { intros Y' ->. apply Permutation_filter, P. }
  assert (Cb : bcount b' = Z.of_nat (length (items b'))) by (rewrite (valid_count _ _ RV); unfold items; rewrite map_length; reflexivity).
  destruct (bcount b' =? 0)%Z eqn:Z0.
  - apply Z.eqb_eq in Z0. assert (I0 : items b' = []) by (destruct (items b'); [reflexivity|cbn in Cb; lia]).
    eexists. split; [reflexivity|].
    replace (length X + 1) with (length X + length [b]) by reflexivity.
    change (X ++ b :: Z) with (X ++ [b] ++ Z) in H1. destruct (erase_spec _ _ _ _ H1) as [U1 U2].
    destruct (take_blocks r X [b] Z [] (is_entry k x) B) as [B' I']; trivial.
    { rewrite its_cons. change (its []) with (@nil (pval * list byte)). rewrite app_nil_r, <- RI. symmetry. exact I0. }
    { constructor. }
    split.
    + exists (X ++ [] ++ Z). cbn [nodes icount]. split; [exact U1|]. split; [exact B'|]. split; [apply (PF []), I'|exact Ic'].
    + intros Me. unfold all_in_memory in *. cbn [nodes]. apply U2. rewrite M1; trivial.
  - assert (I0 : items b' <> []) by (intros Q; rewrite Q in Cb; rewrite Cb in Z0; discriminate).
    destruct (update_spec l1 X b b' Z H1) as (U1 & _ & U2).
    destruct (take_blocks r X [b] Z [b'] (is_entry k x) B) as [B' I']; trivial.
    { rewrite !its_cons. change (its []) with (@nil (pval * list byte)). rewrite !app_nil_r. exact RI. }
    { constructor; [|constructor]. split; [exact RV|]. split; [exact I0|rewrite RF; exact Fu]. }
    { repeat constructor. }
    destruct (merge_around_spec r sparse _ X b' Z U1 B') as (l' & bs' & Q0 & Q1 & Q2 & Q3 & Q4). rewrite Q0. cbn [rbind].
    eexists. split; [reflexivity|]. split.
    + exists bs'. cbn [nodes icount]. split; [exact Q1|]. split; [exact Q2|]. split; [|exact Ic']. rewrite Q3. apply (PF [b']), I'.
    + intros Me. unfold all_in_memory in *. cbn [nodes]. apply Q4, U2. rewrite M1; trivial.
Qed.

(** * Removing a key *)
Notation with_key k := (fun e : pval * list byte => equal k (fst e)).
Notation other_key k := (fun e : pval * list byte => negb (equal k (fst e))).

Lemma memory_load l X b Z : memory l -> Forall2 node_ok l (X ++ b :: Z) ->
  load_at l (length X) = Ok (b, l) /\ exists n, nth_error l (length X) = Some n /\ nblk n = Some b.
Proof.
  intros Me H. destruct (forall2_split _ _ _ _ H) as (l1 & l2 & -> & H1 & H2 & L). inversion H2 as [|n b' ns bs Hn Hz]; subst.
  unfold load_at. rewrite <- L, nth_error_mid. unfold memory in Me. rewrite Forall_app in Me. destruct Me as [_ Me]. inversion_clear Me as [|? ? M1 _].
  destruct (node_mem _ _ Hn) as [E|E]; [|contradiction]. rewrite E. split; [reflexivity|]. eauto.
Qed.

Lemma count_spec r Q : forall l X Z, memory l -> Forall (valid r) Q -> Forall2 node_ok l (X ++ Q ++ Z) ->
  count_items l (length X) (length Q) = Ok (Z.of_nat (length (its Q)), l).
Proof.
  induction Q as [|b Q IH]; intros l X Z Me B H; [reflexivity|]. cbn [length count_items].
  change (X ++ (b :: Q) ++ Z) with (X ++ b :: Q ++ Z) in *. destruct (memory_load l X b (Q ++ Z) Me H) as (-> & _). cbn [rbind].
  inversion_clear B as [|? ? V B'].
  specialize (IH l (X ++ [b]) Z Me B'). rewrite app_length in IH. cbn [length] in IH. rewrite <- app_assoc in IH. rewrite (IH H). cbn [rbind].
  assert (Cb : bcount b = Z.of_nat (length (items b))) by (rewrite (valid_count _ _ V); unfold items; rewrite map_length; reflexivity).
  rewrite Cb, its_cons, app_length. do 2 f_equal. lia.
Qed.

Lemma distinct_zero l : distinct l = 0 -> l = [].
Proof. destruct l as [|k l]; trivial. intros H. pose proof (distinct_pos k l). lia. Qed.

Lemma distinct_one l : distinct l = 1 -> forall r, Forall (exact r) l -> forall a b, In a l -> In b l -> equal a b = true.
Proof.
  intros D r F. induction l as [|k l IH]; [discriminate|]. cbn [distinct] in D. inversion_clear F as [|? ? Fk Fl].
  destruct (existsb (equal k) l) eqn:E.
  - specialize (IH D Fl). apply existsb_exists in E. destruct E as (c & Ic & Ec). rewrite Forall_forall in Fl.
    intros a b [<-|Ia] [<-|Ib].
    + apply equal_refl.
    + apply (equal_trans r k c b); auto.
    + rewrite equal_sym. apply (equal_trans r k c a); auto.
    + auto.
  - injection D as D. apply distinct_zero in D. subst l. intros a b [<-|[]] [<-|[]]. apply equal_refl.
Qed.

(** Removing a key from one block: nothing else was in it, or the rest is left. *)
Lemma end_block r b k : valid r b -> items b <> [] -> bfull b = default_size -> exact r k -> has_key (items b) k = true ->
  if (buniq b =? 1)%Z then forall e, In e (items b) -> equal k (fst e) = true
  else let b' := snd (remove_index b k) in
    (valid r b' /\ items b' <> [] /\ bfull b' = default_size) /\ items b' = filter (other_key k) (items b).
Proof.
  intros V N Fu Hk H. rewrite (valid_uniq _ _ V).
  assert (Fk : Forall (exact r) (map fst (items b))).
  { apply Forall_forall. intros a I. apply in_map_iff in I. destruct I as (e & <- & I). apply (items_exact r b e V I). }
  apply existsb_exists in H. destruct H as (e0 & I0 & E0). pose proof (in_map fst _ _ I0) as J0. destruct (Z.eqb_spec (Z.of_nat (distinct (map fst (items b)))) 1) as [D|D].
  - intros e I. pose proof (in_map fst _ _ I) as J. rewrite Forall_forall in Fk.
    apply (equal_trans r k (fst e0) (fst e)); auto. apply (distinct_one (map fst (items b))) with r; trivial; [lia|apply Forall_forall; exact Fk].
  - cbn zeta. destruct (remove_key_spec r b k V Hk) as (_ & R2 & R3 & R4). cbn [bag_remove_key snd] in R2. split; [|exact R2].
    split; [exact R3|]. split; [|rewrite R4; exact Fu]. rewrite R2. intros Q. apply D.
    rewrite (distinct_same (map fst (items b))); [reflexivity| |].
    + destruct (items b); [destruct I0|discriminate].
    + assert (A : forall e, In e (items b) -> equal k (fst e) = true).
      { intros e I. destruct (equal k (fst e)) eqn:E; trivial. assert (J : In e (filter (other_key k) (items b))) by (apply filter_In; rewrite E; auto).
        rewrite Q in J. destruct J. }
      intros a c Ia Ic. rewrite Forall_forall in Fk. apply in_map_iff in Ia, Ic. destruct Ia as (ea & <- & Ia), Ic as (ec & <- & Ic).
      apply (equal_trans r (fst ea) k (fst ec)); trivial; [apply (items_exact r b ea V Ia)|apply (items_exact r b ec V Ic)|rewrite equal_sym; auto|auto].
Qed.

(** The blocks between the first and the last of a range hold nothing but the key; those two do hold it. *)
Lemma between_spec r bs L b M c R k : cut_at r k bs L (b :: M ++ [c]) R -> blocks_ok r bs -> exact r k ->
  has_key (items b) k = true /\ has_key (items c) k = true /\ (forall e, In e (its M) -> equal k (fst e) = true).
Proof.
  intros C B Hk. pose proof (cut_eq _ _ _ _ _ _ C) as E. pose proof (cut_mid _ _ _ _ _ _ C) as Cm.
  pose proof (each_valid _ _ B) as V. rewrite E, !Forall_app in V. destruct V as (_ & V & _).
  inversion_clear V as [|? ? (Vb & Nb & _) V']. apply Forall_app in V'. destruct V' as [VM V']. inversion_clear V' as [|? ? (Vc & Nc & _) _].
  inversion_clear Cm as [|? ? [B1 B2] Cm']. apply Forall_app in Cm'. destruct Cm' as [_ Cm']. inversion_clear Cm' as [|? ? [C1 C2] _].
  pose proof (in_order _ _ B) as O. rewrite E in O. apply fop_app in O. destruct O as (_ & O & _). apply fop_app in O. destruct O as (O & _).
  inversion_clear O as [|? ? O1 O2]. rewrite Forall_forall in O1. apply fop_app in O2. destruct O2 as (_ & _ & O3).
  destruct (bounds_spec r b Vb Nb) as ((xb & Ib) & _ & Bb). destruct (bounds_spec r c Vc Nc) as (_ & (xc & Ic) & Bc).
  pose proof (items_exact r b _ Vb Ib) as Xb. pose proof (items_exact r c _ Vc Ic) as Xc. cbn [fst] in Xb, Xc.
  assert (Obc : less (min_index c) (max_index b) = false).
  { apply (O1 c) with (e := (min_index c, xc)) (e' := (max_index b, xb)); trivial. apply in_or_app. right. left. reflexivity. }
  assert (Q1 : less k (max_index b) = false) by (apply (le_trans r k (min_index c) (max_index b)); trivial).
  assert (Q2 : less (min_index c) k = false) by (apply (le_trans r (min_index c) (max_index b) k); trivial).
  split; [|split].
  - apply existsb_exists. exists (max_index b, xb). split; [exact Ib|]. apply equal_spec. auto.
  - apply existsb_exists. exists (min_index c, xc). split; [exact Ic|]. apply equal_spec. auto.
  - intros e I. apply its_in in I. destruct I as (d & I & Ie). rewrite Forall_forall in VM. destruct (VM d I) as (Vd & _).
    pose proof (items_exact r d e Vd Ie) as Xe. apply equal_spec. split.
    + apply (le_trans r k (min_index c) (fst e)); trivial.
      apply (O3 d c) with (e := (min_index c, xc)) (e' := e); trivial. left. reflexivity.
    + apply (le_trans r (fst e) (max_index b) k); trivial.
      apply (O1 d) with (e := e) (e' := (max_index b, xb)); trivial. apply in_or_app. auto.
Qed.

Lemma filter_len {A} (f : A -> bool) l : length (filter (fun x => negb (f x)) l) + length (filter f l) = length l.
Proof. rewrite <- app_length. apply Permutation_length, filter_perm_split. Qed.

Lemma erase_key r t l0 l L P1 Q P2 R M k n1 n2 : memory l -> Forall2 node_ok l (L ++ P1 ++ Q ++ P2 ++ R) -> blocks_ok r (L ++ M ++ R) ->
  (forall e, In e (its L) \/ In e (its R) -> equal k (fst e) = false) ->
  its (P1 ++ P2) = filter (other_key k) (its M) ->
  Forall (fun b => valid r b /\ items b <> [] /\ bfull b = default_size) (P1 ++ P2) ->
  ForallOrdPairs (fun b b' => above (items b') (items b)) (P1 ++ P2) -> Forall (valid r) Q ->
  (n1 + n2 + Z.of_nat (length (its Q)) = Z.of_nat (length (filter (with_key k) (its M))))%Z ->
  Permutation (its (L ++ M ++ R)) l0 -> icount t = u64 (Z.of_nat (length l0)) ->
  exists t', (do '(n3, l) <- count_items l (length L + length P1) (length L + length P1 + length Q - (length L + length P1));
    Ok (true, {| nodes := erase (length L + length P1) (length L + length P1 + length Q) l; icount := u64 (icount t - (n1 + n2 + n3));
                 ucount := u64 (ucount t - 1) |})) = Ok (true, t') /\
    tree_holds r t' (filter (other_key k) l0) /\ all_in_memory t' /\ ucount t' = u64 (ucount t - 1).
Proof.
  intros Me H B NK E V O VQ Cn P Ic. rewrite <- app_length. rewrite Nat.add_comm, Nat.add_sub.
  rewrite (app_assoc L) in H. rewrite (count_spec r Q l (L ++ P1) (P2 ++ R) Me VQ H). cbn [rbind].
  rewrite (Nat.add_comm (length Q)). destruct (erase_spec _ _ _ _ H) as [U1 U2].
  destruct (take_blocks r L M R (P1 ++ P2) (with_key k) B E V O NK) as [B' I'].
  eexists. split; [reflexivity|]. split; [|split; [exact (U2 Me)|reflexivity]].
  exists ((L ++ P1) ++ P2 ++ R). cbn [nodes icount]. split; [exact U1|]. rewrite <- app_assoc. rewrite <- app_assoc in B', I'.
  split; [exact B'|]. rewrite I'. split; [apply Permutation_filter, P|]. rewrite Ic, u64_sub, Cn. f_equal.
  pose proof (filter_len (with_key k) (its (L ++ M ++ R))) as F1. cbn beta in F1.
  rewrite (Permutation_length (Permutation_filter (other_key k) _ _ P)), (Permutation_length P) in F1.
  assert (F2 : filter (with_key k) (its (L ++ M ++ R)) = filter (with_key k) (its M)).
  { rewrite !its_app, !filter_app, (filter_none _ (its L)), (filter_none _ (its R)), app_nil_r; [reflexivity| |]; intros e I; apply NK; auto. }
  rewrite F2 in F1. lia.
Qed.

Lemma remove_key_tree r t l k : tree_holds r t l -> exact r k -> all_in_memory t ->
  exists t', seg_remove_key t k = Ok (has_key l k, t') /\ tree_holds r t' (filter (other_key k) l) /\ all_in_memory t' /\
    ucount t' = if has_key l k then u64 (ucount t - 1) else ucount t.
Proof.
  intros (bs & H & B & P & Ic) Hk Me. unfold seg_remove_key. rewrite <- (has_key_perm _ _ k P).
  assert (NO : has_key (its bs) k = false -> filter (other_key k) l = l).
  { intros Q. apply filter_all. intros e I. apply negb_true_iff. destruct (equal k (fst e)) eqn:E; trivial. rewrite (has_key_perm _ _ k P) in Q.
    assert (existsb (with_key k) l = true) by (apply existsb_exists; eauto). unfold has_key in Q. congruence. }
  destruct (nodes t) as [|n0 ns] eqn:En.
  { inversion H; subst. cbn [its map concat has_key existsb]. exists t. split; [reflexivity|]. split; [|auto].
    rewrite NO by reflexivity. exists []. rewrite En. auto. }
  rewrite <- En in H |- *. clear n0 ns En.
  destruct (cut_exists r _ bs k H B Hk) as (L & M & R & C & Fr). rewrite Fr.
  pose proof (cut_eq _ _ _ _ _ _ C) as E. destruct (cut_no_key r k bs L M R C B Hk) as [NL NR].
  assert (HK : has_key (its bs) k = has_key (its M) k).
  { rewrite E, !its_app, !has_key_app, !has_key_its. rewrite (existsb_false _ L), (existsb_false _ R).
    - rewrite orb_false_r. reflexivity.
    - intros b I. apply (NR b I).
    - intros b I. apply (NL b I). }
  assert (SAME : has_key (its bs) k = false -> tree_holds r t (filter (other_key k) l)).
  { intros Q. rewrite (NO Q). exists bs. auto. }
  rewrite (forall2_length _ _ _ H).
  destruct (Nat.eqb_spec (length L) (length bs)) as [EL|EL].
  { assert (EM : M = []) by (rewrite E, !app_length in EL; destruct M; cbn in *; trivial; lia). subst M.
    rewrite HK in *. cbn [its map concat has_key existsb] in *. exists t. auto. }
  assert (exists b Z, M ++ R = b :: Z) as (b & Z & EMR).
  { destruct (M ++ R) as [|b Z] eqn:Q; [rewrite E, app_nil_r in EL; contradiction|eauto]. }
  assert (EB : bs = L ++ b :: Z) by (rewrite E, EMR; reflexivity).
  destruct (memory_load (nodes t) L b Z Me) as (LO & _). { rewrite <- EB. exact H. }
  rewrite LO. cbn [rbind]. assert (B0 : blocks_ok r (L ++ b :: Z)) by (rewrite <- EB; exact B). destruct (valid_in _ _ _ _ B0) as (V & N & Fu).
  destruct (lookup_spec r b k V Hk) as (_ & C2 & _ & C4 & _). rewrite C2.
  destruct M as [|b0 M].
  { cbn [app] in EMR. rewrite (proj1 (NR b ltac:(rewrite EMR; left; reflexivity))). cbn [negb].
    rewrite HK in *. cbn [its map concat has_key existsb] in *. eexists. split; [reflexivity|]. cbn [ucount]. split; [|auto].
    destruct (SAME eq_refl) as (bs' & Q). exists bs'. exact Q. }
  cbn [app] in EMR. injection EMR as -> EZ. destruct (has_key (items b) k) eqn:Hb; cbn [negb].
  2: { destruct M as [|c M _] using rev_ind.
    - rewrite HK, its_cons, app_nil_r, Hb in *. eexists. split; [reflexivity|]. cbn [ucount]. split; [|auto].
      destruct (SAME eq_refl) as (bs' & Q). exists bs'. exact Q.
    - destruct (between_spec r bs L b M c R k C B Hk) as (Q & _). congruence. }
  rewrite HK, its_cons, has_key_app, Hb. cbn [orb].
  assert (NK : forall e, In e (its L) \/ In e (its R) -> equal k (fst e) = false).
  { intros e [I|I]; apply its_in in I; destruct I as (d & Id & Ie); [destruct (NL d Id) as [Q _]|destruct (NR d Id) as [Q _]];
    destruct (equal k (fst e)) eqn:Ek; trivial; assert (existsb (with_key k) (items d) = true) by (apply existsb_exists; eauto); unfold has_key in Q; congruence. }
  assert (AF : forall l0 : bag, (forall e, In e l0 -> equal k (fst e) = true) -> filter (other_key k) l0 = [] /\ filter (with_key k) l0 = l0).
  { intros l0 Q. split; [apply filter_none|apply filter_all]; intros e I; rewrite (Q e I); reflexivity. }
  pose proof (end_block r b k V N Fu Hk Hb) as EBb. set (b' := snd (remove_index b k)) in *.
  destruct (update_spec (nodes t) L b b' Z) as (U1 & _ & U2). { rewrite <- EB. exact H. }
  rewrite E in B, P, H. clear EL LO Fr NL NR HK SAME NO B0. rewrite C4. clear C2 C4.
  destruct M as [|c M _] using rev_ind.
  - cbn [length]. replace (length L + 1 - length L) with 1 by lia. cbn [Nat.ltb Nat.leb]. rewrite Z.eqb_refl || idtac.
    cbn [app] in EZ. subst Z. destruct (buniq b =? 1)%Z; cbn [rbind].
    + destruct (AF _ EBb) as [A1 A2].
      destruct (erase_key r t l (nodes t) L [] [b] [] R [b] k 0 0 Me H B NK) as (t' & T1 & T2);
        [cbn; rewrite app_nil_r, A1; reflexivity|constructor|constructor|constructor; [exact V|constructor]|cbn; rewrite !app_nil_r, A2; reflexivity|exact P|exact Ic|].
      cbn [length] in T1. rewrite Nat.add_0_r in T1. eauto.
    + destruct EBb as [G1 G2].
      destruct (erase_key r t l _ L [b'] [] [] R [b] k (Z.of_nat (length (filter (with_key k) (items b)))) 0 (U2 Me) U1 B NK) as (t' & T1 & T2);
        [cbn; rewrite !app_nil_r; exact G2|constructor; [exact G1|constructor]|repeat constructor|constructor|cbn; rewrite !app_nil_r; lia|exact P|exact Ic|].
      cbn [length] in T1. rewrite Nat.add_0_r in T1. eauto.
  - rewrite E in C. destruct (between_spec r _ L b M c R k C B Hk) as (_ & Hc & Mk).
    destruct (AF _ Mk) as [M1 M2].
    replace (length L + length (b :: M ++ [c]) - length L) with (S (S (length M))) by (cbn; rewrite app_length; cbn; lia).
    change (1 <? S (S (length M))) with true. cbv iota.
    replace (length L + length (b :: M ++ [c]) - 1) with (length (L ++ b :: M)) by (rewrite !app_length; cbn; rewrite app_length; cbn; lia).
    assert (E2 : forall a, L ++ (a :: M ++ [c]) ++ R = (L ++ a :: M) ++ c :: R) by (intros a; rewrite <- !app_assoc; cbn; rewrite <- app_assoc; reflexivity).
    assert (E3 : forall a d, (L ++ a :: M) ++ d :: R = L ++ [a] ++ M ++ [d] ++ R) by (intros a d; rewrite <- !app_assoc; reflexivity).
    assert (EZ' : forall a, L ++ a :: Z = (L ++ a :: M) ++ c :: R) by (intros a; rewrite <- EZ, <- (E2 a); reflexivity).
    assert (VB : blocks_ok r ((L ++ b :: M) ++ c :: R)) by (rewrite <- E2; exact B).
    assert (VM : Forall (valid r) M).
    { pose proof (each_valid _ _ B) as Q. rewrite Forall_app in Q. destruct Q as [_ Q]. inversion_clear Q as [|? ? _ Q']. rewrite !Forall_app in Q'.
      destruct Q' as [[Q' _] _]. refine (Forall_impl _ _ Q'). cbn. tauto. }
    destruct (valid_in _ _ _ _ VB) as (Vc & Nc & Fc). pose proof (end_block r c k Vc Nc Fc Hk Hc) as EC. set (c' := snd (remove_index c k)) in *.
    destruct (lookup_spec r c k Vc Hk) as (_ & _ & _ & C4 & _). rewrite EZ' in U1. rewrite E2 in H.
    assert (IM : its (b :: M ++ [c]) = items b ++ its M ++ items c) by (rewrite its_cons, its_app, its_cons; cbn; rewrite !app_nil_r; reflexivity).
    assert (FO : filter (other_key k) (its (b :: M ++ [c])) = filter (other_key k) (items b) ++ filter (other_key k) (items c)) by (rewrite IM, !filter_app, M1; reflexivity).
    assert (FW : length (filter (with_key k) (its (b :: M ++ [c]))) = length (filter (with_key k) (items b)) + length (its M) + length (filter (with_key k) (items c)))
      by (rewrite IM, !filter_app, M2, !app_length; lia).
    assert (AB : above (items c) (items b)).
    { pose proof (in_order _ _ B) as O. apply fop_app in O. destruct O as (_ & O & _). apply fop_app in O. destruct O as (O & _). inversion_clear O as [|? ? O1 _].
      rewrite Forall_forall in O1. apply O1, in_or_app. right. left. reflexivity. }
    destruct (buniq b =? 1)%Z.
    + destruct (AF _ EBb) as [A1 A2]. rewrite A1, A2 in *. cbn [app] in FO.
      destruct (memory_load (nodes t) (L ++ b :: M) c R Me H) as (_ & n & -> & ->). rewrite C4. destruct (buniq c =? 1)%Z; cbn [rbind].
      * destruct (AF _ EC) as [A3 A4]. rewrite A3, A4 in *. rewrite <- E2 in H.
        destruct (erase_key r t l (nodes t) L [] (b :: M ++ [c]) [] R (b :: M ++ [c]) k 0 0 Me H B NK) as (t' & T1 & T2);
          [rewrite FO; reflexivity|constructor|constructor|constructor; [exact V|apply Forall_app; split; [exact VM|constructor; [exact Vc|constructor]]]
          |rewrite FW, IM, !app_length; lia|exact P|exact Ic|].
        cbn [length] in T1. rewrite Nat.add_0_r in T1. eauto.
      * destruct EC as [G1 G2]. destruct (update_spec _ _ _ c' _ H) as (W1 & _ & W2).
        rewrite E3 in W1. change (L ++ [b] ++ M ++ [c'] ++ R) with (L ++ [] ++ (b :: M) ++ [c'] ++ R) in W1.
        destruct (erase_key r t l _ L [] (b :: M) [c'] R (b :: M ++ [c]) k 0 (Z.of_nat (length (filter (with_key k) (items c)))) (W2 Me) W1 B NK) as (t' & T1 & T2);
          [cbn [app]; rewrite FO, its_cons, app_nil_r; exact G2|constructor; [exact G1|constructor]|repeat constructor|constructor; [exact V|exact VM]
          |rewrite FW, its_cons, app_length; lia|exact P|exact Ic|].
        change (length (@nil block)) with 0 in T1. rewrite Nat.add_0_r, <- app_length in T1. eauto.
    + destruct EBb as [G1 G2].
      replace (length (L ++ b :: M)) with (length (L ++ b' :: M)) by (rewrite !app_length; reflexivity).
      destruct (memory_load _ (L ++ b' :: M) c R (U2 Me) U1) as (_ & n & -> & ->). rewrite C4. destruct (buniq c =? 1)%Z; cbn [rbind].
      * destruct (AF _ EC) as [A3 A4]. rewrite A3, A4 in *. rewrite app_nil_r in FO.
        rewrite E3 in U1. replace (L ++ [b'] ++ M ++ [c] ++ R) with (L ++ [b'] ++ (M ++ [c]) ++ [] ++ R) in U1 by (rewrite <- !app_assoc; reflexivity).
        destruct (erase_key r t l _ L [b'] (M ++ [c]) [] R (b :: M ++ [c]) k (Z.of_nat (length (filter (with_key k) (items b)))) 0 (U2 Me) U1 B NK) as (t' & T1 & T2);
          [cbn [app]; rewrite FO, its_cons, app_nil_r; exact G2|constructor; [exact G1|constructor]|repeat constructor|apply Forall_app; split; [exact VM|constructor; [exact Vc|constructor]]
          |rewrite FW, its_app, its_cons, !app_length; cbn [its map concat length]; lia|exact P|exact Ic|].
        cbn [length] in T1 |- *. replace (length L + S (length (M ++ [c]))) with (length L + 1 + length (M ++ [c])) by lia. eauto.
      * destruct EC as [G3 G4]. destruct (update_spec _ _ _ c' _ U1) as (W1 & _ & W2). rewrite E3 in W1.
        destruct (erase_key r t l _ L [b'] M [c'] R (b :: M ++ [c]) k (Z.of_nat (length (filter (with_key k) (items b)))) (Z.of_nat (length (filter (with_key k) (items c)))) (W2 (U2 Me)) W1 B NK) as (t' & T1 & T2);
          [cbn [app]; rewrite FO, !its_cons, app_nil_r, G2, G4; reflexivity|constructor; [exact G1|constructor; [exact G3|constructor]]
          |constructor; [constructor; [|constructor]|repeat constructor]|exact VM|rewrite FW; lia|exact P|exact Ic|].
        { intros e e' I I'. rewrite G2 in I'. rewrite G4 in I. apply filter_In in I, I'. apply AB; tauto. }
        replace (length L + length [b'] + length M) with (length (L ++ b' :: M)) in T1 by (rewrite app_length; cbn; lia). eauto.
Qed.

(** * Writing and reading *)
Lemma reload_tree r t l : tree_holds r t l -> tree_holds r (flush_and_load t) l.
Proof.
  intros (bs & H & B & P & Ic). exists bs. cbn [flush_and_load nodes icount]. split; [|auto]. clear B P Ic.
  induction H as [|n b ns bs Hn H IH]; [constructor|]. cbn [map]. constructor; [|exact IH]. clear IH H.
  destruct Hn as [H1 H2 H3 H4]. unfold flush_node. destruct (nblk n) as [b'|] eqn:E.
  - destruct H1 as [H1|H1]; [|discriminate]. injection H1 as ->. destruct (nmod n) eqn:Em; constructor; cbn; auto.
  - constructor; cbn; auto.
Qed.

(** * Histories *)
Definition different (l : bag) : Z := u64 (Z.of_nat (distinct (map fst l))).

Lemma step_tree r sparse t l mem o : tree_holds r t l -> (mem = true -> all_in_memory t) -> top_ok r o ->
  match o with TRemove k x => has_entry l k x | TRemoveKey _ => mem | _ => true end = true ->
  exists t', seg_step sparse t o = Ok (fst (col_step l o), t') /\ tree_holds r t' (snd (col_step l o)) /\
    (match o with TReload => false | _ => mem end = true -> all_in_memory t') /\
    (match o with TRemove _ _ => False | _ => True end -> ucount t = different l -> ucount t' = different (snd (col_step l o))).
Proof.
  intros T Me K G. destruct o as [k x|k x|k|]; cbn [seg_step col_step fst snd top_ok] in *.
  - destruct K as (Hk & Hx & Hq). destruct (append_tree r t l k x T Hk Hx Hq) as (t' & E & T' & M' & U'). exists t'. rewrite E.
    destruct (has_entry l k x) eqn:He; cbn [negb fst snd]; (split; [reflexivity|split; [exact T'|split; [auto|]]]); intros _ Ut; rewrite U'.
    + rewrite (entry_key _ _ _ He). exact Ut.
    + unfold different in *. cbn [map fst distinct].
      assert (Q : existsb (equal k) (map fst l) = has_key l k) by (clear; induction l as [|e l IH]; [reflexivity|]; cbn; rewrite IH; reflexivity).
      rewrite Q. destruct (has_key l k); [exact Ut|]. rewrite Ut, u64_add. f_equal. lia.
  - destruct (remove_tree r sparse t l k x T K G) as (t' & E & T' & M'). exists t'. cbn [bag_remove fst snd]. rewrite E, G.
    split; [reflexivity|]. split; [exact T'|]. split; [auto|intros []].
  - destruct (remove_key_tree r t l k T K (Me G)) as (t' & E & T' & M' & U'). exists t'. rewrite E. cbn [bag_remove_key fst snd].
    split; [reflexivity|]. split; [exact T'|]. split; [auto|]. intros _ Ut. rewrite U'.
    destruct T as (bs & _ & B & P & _).
    assert (F : Forall (fun e => exact r (fst e)) l).
    { apply Forall_forall. intros e I. apply (its_exact r bs e B). apply (Permutation_in _ (Permutation_sym P)), I. }
    unfold different in *. clear - F Ut K. 
    assert (Q : distinct (map fst (filter (other_key k) l)) + (if has_key l k then 1 else 0) = distinct (map fst l)).
    { clear Ut. induction l as [|e l IH]; [reflexivity|]. inversion_clear F as [|? ? Fe Fl]. specialize (IH Fl). rewrite Forall_forall in Fl.
      cbn [filter has_key existsb map distinct]. change (existsb (with_key k) l) with (has_key l k).
      assert (XM : forall a l', existsb (equal a) (map fst l') = has_key l' a) by (clear; induction l' as [|e' l' IH]; [reflexivity|]; cbn; rewrite IH; reflexivity).
      rewrite (XM (fst e) l). destruct (equal k (fst e)) eqn:Ek; cbn [negb orb].
      - assert (HH : has_key l (fst e) = has_key l k).
        { unfold has_key. clear IH XM. induction l as [|e' l IH]; [reflexivity|]. cbn. rewrite IH by (intros; apply Fl; right; trivial).
          rewrite (equal_equal r k (fst e) (fst e')); trivial. apply Fl. left. reflexivity. }
        rewrite HH. destruct (has_key l k) eqn:Hl; [exact IH|]. rewrite filter_all; [lia|].
        intros e' I. apply negb_true_iff. destruct (equal k (fst e')) eqn:E'; trivial. unfold has_key in Hl.
        assert (existsb (with_key k) l = true) by (apply existsb_exists; eauto). congruence.
      - cbn [map distinct]. rewrite XM.
        assert (HH : has_key (filter (other_key k) l) (fst e) = has_key l (fst e)).
        { unfold has_key. clear IH XM. induction l as [|e' l IH]; [reflexivity|]. cbn [filter]. destruct (equal k (fst e')) eqn:E'; cbn [negb].
          - rewrite IH by (intros; apply Fl; right; trivial). cbn. assert (Xe' : exact r (fst e')) by (apply Fl; left; reflexivity).
            replace (equal (fst e) (fst e')) with false; [reflexivity|]. symmetry. destruct (equal (fst e) (fst e')) eqn:Q; trivial.
            rewrite (equal_sym k) in E'. rewrite (equal_sym k (fst e)) in Ek.
            rewrite (equal_trans r (fst e) (fst e') k Fe Xe' K Q E') in Ek. discriminate.
          - cbn. rewrite <- IH by (intros; apply Fl; right; trivial). reflexivity. }
        rewrite HH. destruct (has_key l (fst e)); lia. }
    destruct (has_key l k); [rewrite Ut, u64_sub; f_equal; lia|]. rewrite Ut. f_equal. lia.
  - exists (flush_and_load t). split; [reflexivity|]. split; [apply reload_tree, T|]. split; [discriminate|]. intros _ Ut. exact Ut.
Qed.


Lemma run_tree r sparse os : forall t l mem, tree_holds r t l -> (mem = true -> all_in_memory t) -> Forall (top_ok r) os ->
  careful mem l os = true ->
  exists t', seg_run sparse t os = Ok (fst (col_run l os), t') /\ tree_holds r t' (snd (col_run l os)) /\
    (mem && forallb (fun o => match o with TReload => false | _ => true end) os = true -> all_in_memory t') /\
    (forallb no_removal os = true -> ucount t = different l -> ucount t' = different (snd (col_run l os))).
Proof.
  induction os as [|o os IH]; intros t l mem T Me F C.
  - exists t. cbn. rewrite andb_true_r. auto.
  - inversion_clear F as [|? ? Fo Fs]. cbn [careful] in C. apply andb_true_iff in C. destruct C as [C1 C2].
    destruct (step_tree r sparse t l mem o T Me Fo C1) as (t1 & E1 & T1 & M1 & U1).
    destruct (IH t1 (snd (col_step l o)) _ T1 M1 Fs C2) as (t2 & E2 & T2 & M2 & U2).
    exists t2. cbn [seg_run col_run]. rewrite E1. cbn [rbind]. rewrite E2. cbn [rbind].
    destruct (col_step l o) as [a l1] eqn:S1. cbn [fst snd] in *. destruct (col_run l1 os) as [s l2] eqn:S2. cbn [fst snd] in *.
    split; [reflexivity|]. split; [exact T2|]. split.
    + cbn [forallb]. intros Q. apply M2. destruct o; cbn in *; trivial. rewrite andb_false_r in Q. discriminate.
    + cbn [forallb]. intros Q Ut. apply andb_true_iff in Q. destruct Q as [Q1 Q2]. apply U2; trivial. apply U1; trivial. destruct o; trivial; discriminate.
Qed.

Lemma empty_holds r : tree_holds r empty_tree [].
Proof.
  exists []. split; [constructor|]. split; [|split; [reflexivity|reflexivity]]. constructor; constructor.
Qed.

(** * Lookups *)
Notation under k l := (map snd (filter (fun e : pval * list byte => equal k (fst e)) l)).

Lemma in_first_spec {A} r l X b Z (f : block -> A) : Forall2 node_ok l (X ++ b :: Z) -> valid r b -> in_first l (length X) f = Ok (f b).
Proof.
  intros H V. unfold in_first, block_in_range. rewrite Nat.eqb_refl. destruct (load_spec r l X b Z H V) as (l' & -> & _). reflexivity.
Qed.

Lemma range_block r l L X b Z : memory l \/ X = [] -> Forall2 node_ok l (L ++ X ++ b :: Z) -> valid r b ->
  block_in_range l (length L) (length L + length X) = Ok b.
Proof.
  intros R H V. unfold block_in_range. destruct (Nat.eqb_spec (length L + length X) (length L)) as [E|E].
  - assert (X = []) by (destruct X; [reflexivity|cbn in E; lia]). subst X. cbn [app length] in *. rewrite Nat.add_0_r.
    destruct (load_spec r l L b Z H V) as (l' & -> & _). reflexivity.
  - destruct R as [R|R]; [|subst X; cbn in E; lia]. rewrite app_assoc in H. destruct (memory_load l (L ++ X) b Z R H) as (_ & n & En & Eb).
    rewrite app_length in En. rewrite En, Eb. reflexivity.
Qed.

Lemma under_none k l : has_key l k = false -> filter (with_key k) l = [].
Proof.
  intros H. apply filter_none. intros e I. destruct (equal k (fst e)) eqn:E; trivial.
  assert (existsb (with_key k) l = true) by (apply existsb_exists; eauto). unfold has_key in H. congruence.
Qed.

Lemma nth_error_rev_in {A} (l : list A) p : p < length l -> nth_error (rev l) p = nth_error l (length l - p - 1).
Proof.
  intros H. destruct l as [|d l']; [cbn in H; lia|]. set (l := d :: l') in *.
  rewrite (nth_error_nth' (rev l) d) by (rewrite rev_length; exact H). rewrite (nth_error_nth' l d) by lia.
  f_equal. rewrite rev_nth by exact H. f_equal. lia.
Qed.

Lemma loops_spec r l L R k : exact r k -> forall Y X, (memory l \/ length (X ++ Y) <= 1) -> Forall2 node_ok l (L ++ X ++ Y ++ R) -> Forall (valid r) Y ->
  (forall x, contains_loop l k x (length L) (length L + length X) (length Y) = Ok (has_entry (its Y) k x)) /\
  count_loop l k (length L) (length L + length X) (length Y) = Ok (length (filter (with_key k) (its Y))) /\
  items_loop l k (length L) (length L + length X) (length Y) = Ok (under k (its Y)) /\
  (forall skipped p, skipped <= p -> item_loop l k (length L) (length L + length X) (length Y) skipped p =
     Ok (nth_error (concat (map (fun b => rev (under k (items b))) Y)) (p - skipped))).
Proof.
  intros Hk. induction Y as [|b Y IH]; intros X Re H V.
  - cbn. split; [reflexivity|]. split; [reflexivity|]. split; [reflexivity|]. intros s p _. destruct (p - s); reflexivity.
  - inversion_clear V as [|? ? Vb VY]. cbn [length contains_loop count_loop items_loop item_loop].
    assert (Rb : block_in_range l (length L) (length L + length X) = Ok b).
    { apply (range_block r l L X b (Y ++ R)); trivial. destruct Re as [Re|Re]; [auto|]. right. rewrite app_length in Re. destruct X; [reflexivity|cbn in Re; lia]. }
    rewrite Rb. cbn [rbind]. destruct (lookup_spec r b k Vb Hk) as (C1 & _ & C3 & C4 & C5). rewrite C3, C4.
    destruct (IH (X ++ [b])) as (I1 & I2 & I3 & I4); trivial.
    { rewrite <- app_assoc. exact Re. }
    { rewrite <- app_assoc. exact H. }
    rewrite app_length in I1, I2, I3, I4. cbn [length] in I1, I2, I3, I4. rewrite Nat.add_assoc in I1, I2, I3, I4.
    rewrite I2, I3. cbn [rbind]. rewrite its_cons, filter_app, app_length, map_app. split; [|split; [reflexivity|split; [reflexivity|]]].
    + intros x. rewrite C1, has_entry_app, I1. destruct (has_entry (items b) k x); reflexivity.
    + intros s p Hp. cbn [map concat]. set (n := length (filter (with_key k) (items b))).
      assert (Ln : length (rev (under k (items b))) = n) by (rewrite rev_length, map_length; reflexivity).
      destruct (p <? s + n) eqn:E.
      * apply Nat.ltb_lt in E. rewrite C5, nth_error_app1 by lia. f_equal.
        rewrite nth_error_rev_in by (rewrite rev_length in Ln; lia). f_equal. rewrite rev_length in Ln. lia.
      * apply Nat.ltb_ge in E. rewrite I4 by lia. rewrite nth_error_app2 by lia. rewrite Ln. do 2 f_equal. lia.
Qed.

Lemma small_range r t k L M R bs : Forall2 node_ok (nodes t) bs -> blocks_ok r bs -> exact r k ->
  cut_at r k bs L M R -> find_range (nodes t) k = (length L, length L + length M) -> all_in_memory t \/ one_block t k ->
  memory (nodes t) \/ length M <= 1.
Proof.
  intros H B Hk C F [Me|O]; [left; exact Me|]. right.
  destruct (range_spec r _ k _ _ (blocks_ordered r _ bs H B) Hk F) as [Le S].
  destruct (Nat.leb_spec (length M) 1) as [Q|Q]; trivial. exfalso.
  destruct (nth_error (nodes t) (length L)) as [n|] eqn:En; [|apply nth_error_None in En; lia].
  destruct (nth_error (nodes t) (length L + 1)) as [m|] eqn:Em; [|apply nth_error_None in Em; lia].
  assert (length L = length L + 1); [|lia]. apply (O _ _ n m En Em); [apply (S _ _ En)|apply (S _ _ Em)]; lia.
Qed.

Lemma under_perm k l l' : Permutation l l' -> Permutation (under k l) (under k l').
Proof. intros P. apply Permutation_map, Permutation_filter, P. Qed.

Lemma lookup_tree r t l k : tree_holds r t l -> exact r k -> all_in_memory t \/ one_block t k ->
  (forall x, seg_contains t k x = Ok (has_entry l k x)) /\
  seg_contains_key t k = Ok (has_key l k) /\
  seg_item_count t k = Ok (length (filter (with_key k) l)) /\
  (exists s, seg_get_items t k = Ok s /\ Permutation s (under k l)) /\
  (exists s, (forall p, seg_get_item t k p = Ok (nth_error s p)) /\ Permutation s (under k l)).
Proof.
  intros (bs & H & B & P & Ic) Hk RD.
  destruct (cut_exists r _ bs k H B Hk) as (L & M & R & C & Fr).
  pose proof (small_range r t k L M R bs H B Hk C Fr RD) as SR.
  pose proof (cut_eq _ _ _ _ _ _ C) as E. destruct (cut_no_key r k bs L M R C B Hk) as [NL NR].
  assert (HK : has_key l k = has_key (its M) k).
  { rewrite <- (has_key_perm _ _ k P), E, !its_app, !has_key_app, !has_key_its. rewrite (existsb_false _ L), (existsb_false _ R).
    - rewrite orb_false_r. reflexivity.
    - intros b I. apply (NR b I).
    - intros b I. apply (NL b I). }
  assert (FN : forall Y, (forall b, In b Y -> has_key (items b) k = false) -> filter (with_key k) (its Y) = []).
  { intros Y Q. apply under_none. rewrite has_key_its. apply existsb_false, Q. }
  assert (FK : Permutation (filter (with_key k) l) (filter (with_key k) (its M))).
  { rewrite <- (Permutation_filter (with_key k) _ _ P), E, !its_app, !filter_app, (FN L), (FN R), app_nil_r; [reflexivity|apply NR|apply NL]. }
  assert (UK : Permutation (under k (its M)) (under k l)) by (apply Permutation_map, Permutation_sym, FK).
  pose proof (each_valid _ _ B) as V. rewrite E, !Forall_app in V. destruct V as (_ & VM & VR).
  unfold seg_contains, seg_contains_key, seg_item_count, seg_get_items, seg_get_item. rewrite Fr, (forall2_length _ _ _ H).
  destruct (Nat.eqb_spec (length L) (length bs)) as [EL|EL].
  { assert (EM : M = []) by (rewrite E, !app_length in EL; destruct M; cbn in *; trivial; lia). subst M.
    split; [intros x; rewrite <- (has_entry_perm _ _ k x P), (cut_has_entry r k bs L [] R x C B Hk); reflexivity|].
    rewrite HK, (Permutation_length FK). split; [reflexivity|]. split; [reflexivity|]. split; [exists []; auto|].
    exists []. split; [intros [|p]; reflexivity|exact UK]. }
  destruct M as [|b M].
  - destruct R as [|b R]; [rewrite E, app_nil_r in EL; contradiction|]. inversion_clear VR as [|? ? (Vb & _) _].
    cbn [length]. rewrite Nat.add_0_r, Nat.eqb_refl. cbn [app] in E. rewrite E in H.
    destruct (lookup_spec r b k Vb Hk) as (C1 & C2 & C3 & C4 & C5). rewrite !(in_first_spec r _ L b R _ H Vb).
    destruct (NR b (or_introl eq_refl)) as [N1 N2].
    assert (U0 : under k (items b) = []) by (rewrite (under_none _ _ N1); reflexivity).
    split; [intros x; rewrite (in_first_spec r _ L b R _ H Vb), C1, N2, <- (has_entry_perm _ _ k x P), (cut_has_entry r k bs L [] (b :: R) x C B Hk); reflexivity|].
    rewrite C2, C3, C4, N1, U0, (under_none _ _ N1), HK, (Permutation_length FK). split; [reflexivity|]. split; [reflexivity|].
    split; [exists []; auto|]. exists []. split; [|exact UK]. intros p. rewrite (in_first_spec r _ L b R _ H Vb), C5, U0. reflexivity.
  - replace (length L =? length L + length (b :: M)) with false by (symmetry; apply Nat.eqb_neq; cbn; lia).
    replace (length L + length (b :: M) - length L) with (length (b :: M)) by lia. rewrite E in H.
    assert (VV : Forall (valid r) (b :: M)) by (refine (Forall_impl _ _ VM); cbn; tauto).
    destruct (loops_spec r (nodes t) L R k Hk (b :: M) []) as (I1 & I2 & I3 & I4); trivial.
    cbn [length app] in I1, I2, I3, I4. rewrite Nat.add_0_r in I1, I2, I3, I4. cbn [length].
    split; [intros x; rewrite I1, <- (has_entry_perm _ _ k x P), (cut_has_entry r k bs L (b :: M) R x C B Hk); reflexivity|].
    split.
    { inversion_clear VV as [|? ? Vb _]. rewrite (in_first_spec r _ L b (M ++ R) _ H Vb). destruct (lookup_spec r b k Vb Hk) as (_ & C2 & _). rewrite C2, HK. f_equal.
      destruct M as [|c M _] using rev_ind; [rewrite its_cons, app_nil_r; reflexivity|].
      destruct (between_spec r bs L b M c R k C B Hk) as (Q & _). rewrite its_cons, has_key_app, Q. reflexivity. }
    rewrite I2, (Permutation_length FK). split; [reflexivity|]. split; [eexists; split; [exact I3|exact UK]|].
    eexists. split; [intros p; rewrite I4 by lia; rewrite Nat.sub_0_r; reflexivity|].
    rewrite <- UK. clear. generalize (b :: M) as Y. clear. intros Y. induction Y as [|b Y IH]; [reflexivity|].
    cbn [map concat]. rewrite IH, its_cons, filter_app, map_app, <- Permutation_rev. reflexivity.
Qed.

Lemma remove_outside r sparse t l k x : tree_holds r t l -> exact r k -> (forall n, In n (nodes t) -> ~ may_hold n k) ->
  exists t', seg_remove sparse t k x = Ok (false, t') /\ tree_holds r t' l /\ icount t' = icount t /\ ucount t' = ucount t.
Proof.
  intros (bs & H & B & P & Ic) Hk Out. unfold seg_remove.
  destruct (nodes t) as [|n0 ns] eqn:En; [exists t; split; [reflexivity|]; split; [exists bs; rewrite En; auto|auto]|].
  rewrite <- En in H, Out |- *. clear n0 ns En.
  destruct (range_parts r _ k (blocks_ordered r _ bs H B) Hk) as (L0 & M0 & R0 & E0 & F0 & _ & HM & _).
  assert (M0 = []).
  { destruct M0 as [|n M0]; trivial. inversion_clear HM as [|? ? Q _]. exfalso. apply (Out n); trivial. rewrite E0. apply in_or_app. right. left. reflexivity. }
  subst M0. rewrite F0. cbn [length]. rewrite Nat.add_0_r, Nat.eqb_refl.
  destruct (Nat.eqb_spec (length L0) (length (nodes t))) as [EL|EL]; [exists t; split; [reflexivity|]; split; [exists bs; auto|auto]|].
  destruct (cut_exists r _ bs k H B Hk) as (L & M & R & C & Fr). rewrite F0 in Fr. injection Fr as E1 E2. cbn [length] in E2.
  assert (M = []) by (destruct M; [reflexivity|cbn in E2; lia]). subst M. pose proof (cut_eq _ _ _ _ _ _ C) as E. cbn [app] in E.
  destruct R as [|b R]; [rewrite (forall2_length _ _ _ H), E, app_nil_r, E1 in EL; contradiction|].
  destruct (cut_no_key r k bs L [] (b :: R) C B Hk) as [_ NR]. destruct (NR b (or_introl eq_refl)) as [N1 _]. clear C NR.
  rewrite E in H, B, P. destruct (valid_in _ _ _ _ B) as (V & _ & _). rewrite E1.
  destruct (load_spec r _ L b R H V) as (l1 & LO & H1 & _). rewrite LO. cbn [rbind].
  destruct (lookup_spec r b k V Hk) as (_ & C2 & _). rewrite C2, N1. cbn [negb]. eexists. split; [reflexivity|]. cbn [icount ucount].
  split; [exists (L ++ b :: R); auto|auto].
Qed.
