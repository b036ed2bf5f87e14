(** * Proofs about the B+-tree: leaves and descent *)
From Coq Require Import List ZArith Lia Arith Bool Permutation Sorted ZifyNat ZifyBool.
From Verif Require Import Bytes Outcome BtModel BtSpec.
Import ListNotations.
Ltac Zify.zify_post_hook ::= Z.div_mod_to_equations.

(** ** Lists *)

Lemma split_at {A} (l : list A) p x :
  nth_error l p = Some x -> exists a b, l = a ++ x :: b /\ length a = p.
Proof. intro H. apply nth_error_split in H. exact H. Qed.

Lemma nth_error_mid {A} (a : list A) x b : nth_error (a ++ x :: b) (length a) = Some x.
Proof. rewrite nth_error_app2 by lia. now rewrite Nat.sub_diag. Qed.

Lemma firstn_mid {A} (a b : list A) : firstn (length a) (a ++ b) = a.
Proof. rewrite firstn_app, firstn_all, Nat.sub_diag. cbn. apply app_nil_r. Qed.

Lemma skipn_mid {A} (a b : list A) : skipn (length a) (a ++ b) = b.
Proof. rewrite skipn_app, skipn_all, Nat.sub_diag. reflexivity. Qed.

Lemma skipn_mid1 {A} (a : list A) x b : skipn (S (length a)) (a ++ x :: b) = b.
Proof.
  replace (a ++ x :: b) with ((a ++ [x]) ++ b) by (rewrite <- app_assoc; reflexivity).
  replace (S (length a)) with (length (a ++ [x])) by (rewrite app_length; cbn; lia).
  apply skipn_mid.
Qed.

Lemma set_mid {A} (a : list A) x y b : set_nth (length a) y (a ++ x :: b) = a ++ y :: b.
Proof. unfold set_nth. now rewrite firstn_mid, skipn_mid1. Qed.

Lemma del_mid {A} (a : list A) x b : del_nth (length a) (a ++ x :: b) = a ++ b.
Proof. unfold del_nth. now rewrite firstn_mid, skipn_mid1. Qed.

Lemma ins_mid {A} (a : list A) x y b : ins_nth (S (length a)) y (a ++ x :: b) = a ++ x :: y :: b.
Proof.
  unfold ins_nth.
  replace (a ++ x :: b) with ((a ++ [x]) ++ b) by (rewrite <- app_assoc; reflexivity).
  replace (S (length a)) with (length (a ++ [x])) by (rewrite app_length; cbn; lia).
  rewrite firstn_mid, skipn_mid, <- app_assoc. reflexivity.
Qed.

Lemma filter_id {A} (f : A -> bool) l : (forall x, In x l -> f x = true) -> filter f l = l.
Proof.
  induction l as [ | a l IH]; intro H; cbn; [reflexivity | ].
  rewrite (H a (or_introl eq_refl)), IH; [reflexivity | ]. intros x Hx. apply H. now right.
Qed.

Lemma filter_none {A} (f : A -> bool) l : (forall x, In x l -> f x = false) -> filter f l = [].
Proof.
  induction l as [ | a l IH]; intro H; cbn; [reflexivity | ].
  rewrite (H a (or_introl eq_refl)). apply IH. intros x Hx. apply H. now right.
Qed.

(** ** Ascending lists of entries *)

Notation asc := ascending.

Definition below (a b : list entry) : Prop := forall x y, In x a -> In y b -> (fst x < fst y)%Z.

Lemma asc_app a b : asc (a ++ b) <-> asc a /\ asc b /\ below a b.
Proof.
  unfold ascending, below. induction a as [ | x a IH]; cbn.
  - split; [intro H; repeat split; [constructor | exact H | easy] | tauto].
  - split.
    + intro H. inversion H as [ | ? ? H1 H2]; subst. apply IH in H1 as (H3 & H4 & H5).
      rewrite Forall_forall in H2. repeat split.
      * constructor; [exact H3 | ]. apply Forall_forall. intros y Hy. apply H2, in_or_app. now left.
      * exact H4.
      * intros y z [ <- | Hy] Hz; [apply H2, in_or_app; now right | now apply H5].
    + intros (H1 & H2 & H3). inversion H1 as [ | ? ? H4 H5]; subst. constructor.
      * apply IH. repeat split; auto.
      * rewrite Forall_forall in *. intros y Hy. apply in_app_or in Hy as [Hy | Hy]; auto.
Qed.

Lemma asc_one x : asc [x].
Proof. constructor; constructor. Qed.

Lemma asc_cons x l : asc (x :: l) <-> asc l /\ (forall y, In y l -> (fst x < fst y)%Z).
Proof.
  change (x :: l) with ([x] ++ l). rewrite asc_app. unfold below. split.
  - intros (_ & H1 & H2). split; [exact H1 | ]. intros y Hy. apply H2; [now left | exact Hy].
  - intros (H1 & H2). repeat split; [apply asc_one | exact H1 | ]. intros z y [ <- | [] ] Hy. now apply H2.
Qed.

Lemma below_app_l a b c : below (a ++ b) c <-> below a c /\ below b c.
Proof.
  unfold below. split.
  - intro H. split; intros x y Hx Hy; apply H; auto; apply in_or_app; tauto.
  - intros (H1 & H2) x y Hx Hy. apply in_app_or in Hx as [Hx | Hx]; auto.
Qed.

Lemma below_app_r a b c : below a (b ++ c) <-> below a b /\ below a c.
Proof.
  unfold below. split.
  - intro H. split; intros x y Hx Hy; apply H; auto; apply in_or_app; tauto.
  - intros (H1 & H2) x y Hx Hy. apply in_app_or in Hy as [Hy | Hy]; auto.
Qed.

Lemma asc_filter f l : asc l -> asc (filter f l).
Proof.
  induction l as [ | x l IH]; intro H; cbn; [constructor | ].
  apply asc_cons in H as (H1 & H2). destruct (f x); [ | now apply IH].
  apply asc_cons. split; [now apply IH | ]. intros y Hy. apply filter_In in Hy. now apply H2.
Qed.

Lemma asc_nodup l : asc l -> NoDup (map fst l).
Proof.
  induction l as [ | x l IH]; intro H; cbn; [constructor | ].
  apply asc_cons in H as (H1 & H2). constructor; [ | now apply IH].
  intro Hin. apply in_map_iff in Hin as (y & Hy & Hy'). specialize (H2 y Hy'). lia.
Qed.

Lemma asc_keys l : asc l -> keys l = map fst l.
Proof. intro H. apply nodup_fixed_point, asc_nodup, H. Qed.

Lemma asc_uniq l : asc l -> uniq l = length l.
Proof. intro H. unfold uniq. now rewrite asc_keys, map_length by exact H. Qed.

Lemma asc_cut n l : asc l -> cut n l = (firstn n l, skipn n l).
Proof.
  intro H. unfold cut. rewrite asc_keys by exact H. rewrite nth_error_map.
  destruct (nth_error l n) as [x | ] eqn:E; cbn [option_map].
  - apply split_at in E as (a & b & -> & <-).
    rewrite firstn_mid, skipn_mid.
    apply asc_app in H as (H1 & H2 & H3). apply asc_cons in H2 as (H2 & H4).
    rewrite !filter_app. cbn [filter].
    assert (E1 : filter (fun e => (fst e <? fst x)%Z) a = a).
    { apply filter_id. intros y Hy. specialize (H3 y x Hy (or_introl eq_refl)). lia. }
    assert (E2 : filter (fun e => (fst e <? fst x)%Z) b = []).
    { apply filter_none. intros y Hy. specialize (H4 y Hy). lia. }
    assert (E3 : filter (fun e => (fst x <=? fst e)%Z) a = []).
    { apply filter_none. intros y Hy. specialize (H3 y x Hy (or_introl eq_refl)). lia. }
    assert (E4 : filter (fun e => (fst x <=? fst e)%Z) b = b).
    { apply filter_id. intros y Hy. specialize (H4 y Hy). lia. }
    rewrite E1, E2, E3, E4, Z.ltb_irrefl, Z.leb_refl. now rewrite app_nil_r.
  - apply nth_error_None in E. now rewrite firstn_all2, skipn_all2 by lia.
Qed.

(** an index is in one place of an ascending list *)
Lemma item_eqb_eq a b : item_eqb a b = true <-> a = b.
Proof. unfold item_eqb. destruct (list_eq_dec Ascii.ascii_dec a b); split; congruence. Qed.

Lemma entry_eqb_eq a b : entry_eqb a b = true <-> a = b.
Proof.
  unfold entry_eqb. rewrite andb_true_iff, item_eqb_eq, Z.eqb_eq. destruct a, b; cbn. split; [intros [-> ->]; reflexivity | ].
  intro H; injection H; auto.
Qed.

Lemma has_key_in k l : has_key k l = true <-> In k (map fst l).
Proof.
  unfold has_key. rewrite existsb_exists, in_map_iff. split; intros (x & H1 & H2); exists x; split; auto; lia.
Qed.

Lemma has_entry_in k x l : has_entry k x l = true <-> In (k, x) l.
Proof.
  unfold has_entry. rewrite existsb_exists. split.
  - intros (y & H1 & H2). apply entry_eqb_eq in H2. now subst.
  - intro H. exists (k, x). split; [exact H | now apply entry_eqb_eq].
Qed.

Lemma asc_fst_inj l x y : asc l -> In x l -> In y l -> fst x = fst y -> x = y.
Proof.
  intros H Hx Hy E. induction l as [ | z l IH]; [easy | ].
  apply asc_cons in H as (H1 & H2). destruct Hx as [ -> | Hx], Hy as [ -> | Hy]; auto.
  - specialize (H2 _ Hy). lia.
  - specialize (H2 _ Hx). lia.
Qed.

Lemma remove_is_index l k x : asc l -> In (k, x) l ->
  leaf_remove k x l = (true, filter (fun e => negb (fst e =? k)%Z) l).
Proof.
  intros H Hin. unfold leaf_remove. replace (has_entry k x l) with true by (symmetry; now apply has_entry_in).
  f_equal. apply filter_ext_in. intros y Hy. f_equal. unfold entry_eqb. cbn [fst snd].
  destruct (Z.eqb_spec k (fst y)) as [E | E].
  - assert (y = (k, x)) as -> by (apply (asc_fst_inj l); auto). cbn [fst snd].
    rewrite Z.eqb_refl. cbn. now apply item_eqb_eq.
  - cbn. symmetry. apply Z.eqb_neq. congruence.
Qed.

Lemma remove_index_is l k : In k (map fst l) ->
  leaf_remove_index k l = (true, filter (fun e => negb (fst e =? k)%Z) l).
Proof. intro H. unfold leaf_remove_index. apply has_key_in in H. now rewrite H. Qed.

Lemma filter_key_length l k : asc l -> In k (map fst l) ->
  S (length (filter (fun e => negb (fst e =? k)%Z) l)) = length l.
Proof.
  induction l as [ | x l IH]; intros H Hin; [easy | ].
  apply asc_cons in H as (H1 & H2). cbn [filter map] in *.
  destruct (Z.eqb_spec (fst x) k) as [E | E]; cbn [negb].
  - rewrite filter_id; [reflexivity | ]. intros y Hy. specialize (H2 y Hy).
    destruct (Z.eqb_spec (fst y) k); [lia | reflexivity].
  - destruct Hin as [Hin | Hin]; [easy | ]. cbn [length]. f_equal. now apply IH.
Qed.

Lemma append_new l k x : ~ In k (map fst l) ->
  leaf_append k x l = (true, filter (fun e => fst e <=? k)%Z l ++ (k, x) :: filter (fun e => k <? fst e)%Z l).
Proof.
  intro H. unfold leaf_append. destruct (has_entry k x l) eqn:E; [ | reflexivity].
  apply has_entry_in in E. exfalso. apply H. now apply (in_map fst) in E.
Qed.

Lemma append_asc (l : list entry) k x : asc l -> ~ In k (map fst l) ->
  asc (filter (fun e => fst e <=? k)%Z l ++ (k, x) :: filter (fun e => k <? fst e)%Z l).
Proof.
  intros H Hn. apply asc_app. split; [now apply asc_filter | ]. split.
  - apply asc_cons. split; [now apply asc_filter | ]. intros y Hy. apply filter_In in Hy as (_ & Hy). cbn. lia.
  - intros a b Ha Hb. apply filter_In in Ha as (Ha & Ha').
    assert (fst a <> k). { intro E. apply Hn. apply in_map_iff. now exists a. }
    destruct Hb as [ <- | Hb]; cbn [fst]; [lia | ]. apply filter_In in Hb as (_ & Hb). lia.
Qed.

Lemma append_perm (l : list entry) k x :
  Permutation (filter (fun e => fst e <=? k)%Z l ++ (k, x) :: filter (fun e => k <? fst e)%Z l) ((k, x) :: l).
Proof.
  rewrite <- Permutation_middle. constructor.
  induction l as [ | y l IH]; [reflexivity | ]. cbn [filter].
  destruct (Z.leb_spec (fst y) k), (Z.ltb_spec k (fst y)); try lia.
  - cbn. now constructor.
  - rewrite <- Permutation_middle. now constructor.
Qed.

Lemma append_length (l : list entry) k x :
  length (filter (fun e => fst e <=? k)%Z l ++ (k, x) :: filter (fun e => k <? fst e)%Z l) = S (length l).
Proof. exact (Permutation_length (append_perm l k x)). Qed.

(** replacing the middle of an ascending list *)
Lemma asc_mid a l e b k :
  asc (a ++ l ++ b) -> asc e -> (forall y, In y e -> In y l \/ fst y = k) ->
  (forall y, In y a -> (fst y < k)%Z) -> (forall y, In y b -> (k < fst y)%Z) -> asc (a ++ e ++ b).
Proof.
  intros H He Hin Ha Hb. rewrite !asc_app in *. rewrite !below_app_r in *.
  destruct H as (H1 & (H2 & H3 & H4) & H5 & H6). repeat split; auto.
  - intros x y Hx Hy. destruct (Hin x Hx) as [Hx' | Hx']; [now apply H4 | ]. specialize (Hb y Hy). lia.
  - intros x y Hx Hy. destruct (Hin y Hy) as [Hy' | Hy']; [now apply H5 | ]. specialize (Ha x Hx). lia.
Qed.

Lemma append_in (l : list entry) k x y :
  In y (filter (fun e => fst e <=? k)%Z l ++ (k, x) :: filter (fun e => k <? fst e)%Z l) -> In y l \/ fst y = k.
Proof.
  intro H. apply (Permutation_in _ (append_perm l k x)) in H. destruct H as [ <- | H]; [now right | now left].
Qed.

(** ** Leaves in a row *)

Notation flat := (flat_map ents).

Lemma flat_app a b : flat (a ++ b) = flat a ++ flat b.
Proof. apply flat_map_app. Qed.

Lemma flat_mid a l b : flat (a ++ l :: b) = flat a ++ ents l ++ flat b.
Proof. rewrite flat_app. reflexivity. Qed.

Definition filled (ls : list leaf) : Prop := forall l, In l ls -> ents l <> [].

Definition row (ls : list leaf) : Prop := asc (flat ls) /\ filled ls.

(** the least index of a leaf *)
Definition mn (ls : list leaf) (p : nat) : Z :=
  match leaf_min ls p with Fin z => z | _ => 0%Z end.

Lemma lmin_cons x l : lmin (x :: l) = Fin (fst x).
Proof. reflexivity. Qed.

Lemma leaf_min_fin ls p : filled ls -> p < length ls -> leaf_min ls p = Fin (mn ls p).
Proof.
  intros Hf Hp. unfold mn. destruct (nth_error ls p) as [l | ] eqn:E; [ | apply nth_error_None in E; lia].
  unfold leaf_min. rewrite E. apply nth_error_In, Hf in E. now destruct (ents l).
Qed.

Lemma leaf_min_in ls p l : filled ls -> nth_error ls p = Some l ->
  exists e r, ents l = e :: r /\ fst e = mn ls p.
Proof.
  intros Hf E. unfold mn, leaf_min. rewrite E. apply nth_error_In, Hf in E.
  destruct (ents l) as [ | e r]; [easy | ]. now exists e, r.
Qed.

Lemma mn_mono ls p q : row ls -> p < q < length ls -> (mn ls p < mn ls q)%Z.
Proof.
  intros (Ha & Hf) Hpq.
  destruct (nth_error ls p) as [l1 | ] eqn:E1; [ | apply nth_error_None in E1; lia].
  destruct (nth_error ls q) as [l2 | ] eqn:E2; [ | apply nth_error_None in E2; lia].
  destruct (leaf_min_in ls p l1 Hf E1) as (e1 & r1 & H1 & <-).
  destruct (leaf_min_in ls q l2 Hf E2) as (e2 & r2 & H2 & <-).
  apply split_at in E1 as (a & b & -> & <-).
  rewrite nth_error_app2 in E2 by lia.
  destruct (q - length a) as [ | q'] eqn:Eq; [lia | ]. cbn in E2.
  apply nth_error_In in E2. rewrite flat_mid in Ha. apply asc_app in Ha as (_ & Ha & _).
  apply asc_app in Ha as (_ & _ & Ha). apply Ha; [rewrite H1; now left | ].
  apply in_flat_map. exists l2. split; [exact E2 | rewrite H2; now left].
Qed.

(** all entries to the left of the least index of a leaf are smaller *)
Lemma row_left ls a l b e r : row ls -> ls = a ++ l :: b -> ents l = e :: r ->
  forall y, In y (flat a) -> (fst y < fst e)%Z.
Proof.
  intros (Ha & _) -> E y Hy. rewrite flat_mid in Ha. apply asc_app in Ha as (_ & _ & Ha).
  apply Ha; [exact Hy | ]. rewrite E. now left.
Qed.

Lemma asc_head e r y : asc (e :: r) -> In y (e :: r) -> (fst e <= fst y)%Z.
Proof. intros H [ <- | Hy]; [lia | ]. apply asc_cons in H as (_ & H). specialize (H y Hy). lia. Qed.

(** ** Finding a child *)

Lemma lb_spec mins k : lb mins k <= length mins /\
  (forall i, i < lb mins k -> ext_ltb (nth i mins PosInf) k = true) /\
  (lb mins k < length mins -> ext_ltb (nth (lb mins k) mins PosInf) k = false).
Proof.
  induction mins as [ | a mins IH]; cbn [lb length]; [repeat split; intros; lia | ].
  destruct (ext_ltb a k) eqn:E; cbn [length].
  - destruct IH as (H1 & H2 & H3). repeat split; [lia | | ].
    + intros [ | i] Hi; [exact E | ]. apply H2. lia.
    + intro Hi. apply H3. lia.
  - repeat split; [lia | intros; lia | ]. intros _. exact E.
Qed.

Lemma lb_eq mins k n : n <= length mins ->
  (forall i, i < n -> ext_ltb (nth i mins PosInf) k = true) ->
  (n < length mins -> ext_ltb (nth n mins PosInf) k = false) -> lb mins k = n.
Proof.
  intros Hn H1 H2. destruct (lb_spec mins k) as (G1 & G2 & G3).
  destruct (lt_eq_lt_dec (lb mins k) n) as [ [H | H] | H]; [ | exact H | ].
  - rewrite H1 in G3 by exact H. discriminate G3. lia.
  - rewrite G2 in H2 by exact H. discriminate H2. lia.
Qed.

(** ascending minima *)
Definition up (mins : list ext) : Prop := exists zs, mins = map Fin zs /\ StronglySorted Z.lt zs.

Lemma nth_map_fin zs i : i < length zs -> nth i (map Fin zs) PosInf = Fin (nth i zs 0%Z).
Proof.
  intro H. rewrite (nth_indep _ PosInf (Fin 0%Z)) by now rewrite map_length. apply map_nth.
Qed.

Lemma sorted_nth zs i j : StronglySorted Z.lt zs -> i < j < length zs -> (nth i zs 0 < nth j zs 0)%Z.
Proof.
  revert i j. induction zs as [ | z zs IH]; intros i j H Hij; cbn in Hij; [lia | ].
  inversion H as [ | ? ? H1 H2]; subst. destruct j as [ | j]; [lia | ]. destruct i as [ | i]; cbn.
  - rewrite Forall_forall in H2. apply H2, nth_In. lia.
  - apply IH; [exact H1 | lia].
Qed.

(** the child for an index is the last one whose minimum is not above it, or else the first *)
Lemma find_node_spec mins k : up mins -> mins <> [] ->
  let i := find_node mins k in
  i < length mins /\
  (i = 0 \/ ext_ltb k (nth i mins PosInf) = false) /\
  (S i = length mins \/ ext_ltb k (nth (S i) mins PosInf) = true).
Proof.
  intros (zs & -> & Hs) Hne. cbn zeta. unfold find_node.
  destruct (lb_spec (map Fin zs) k) as (H1 & H2 & H3).
  rewrite map_length in *. set (p := lb (map Fin zs) k) in *.
  assert (Hl : 0 < length zs) by (destruct zs; cbn in *; [congruence | lia]).
  destruct (Nat.eqb_spec p (length zs)) as [E | E].
  - split; [lia | ]. split; [ | left; lia].
    right. specialize (H2 (p - 1) ltac:(lia)). rewrite nth_map_fin in * by lia.
    destruct k; cbn in *; try discriminate; lia.
  - specialize (H3 ltac:(lia)).
    destruct (Nat.eqb_spec p 0) as [E0 | E0].
    + split; [lia | ]. split; [now left | ]. destruct (Nat.eq_dec 1 (length zs)) as [ <- | E1]; [now left | right].
      rewrite E0 in H3. rewrite nth_map_fin in * by lia.
      pose proof (sorted_nth zs 0 1 Hs ltac:(lia)). destruct k; cbn in *; try discriminate; try reflexivity; lia.
    + destruct (ext_ltb k (nth p (map Fin zs) PosInf)) eqn:Ek.
      * split; [lia | ]. replace (S (p - 1)) with p by lia. split; [ | now right].
        right. specialize (H2 (p - 1) ltac:(lia)). rewrite nth_map_fin in * by lia.
        destruct k; cbn in *; try discriminate; lia.
      * split; [lia | ]. split; [now right | ].
        destruct (Nat.eq_dec (S p) (length zs)) as [E1 | E1]; [now left | right].
        rewrite nth_map_fin in * by lia.
        pose proof (sorted_nth zs p (S p) Hs ltac:(lia)). destruct k; cbn in *; try discriminate; try reflexivity; lia.
Qed.
