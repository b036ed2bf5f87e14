(** * Proofs about the B+-tree: reading, loading, histories *)
From Coq Require Import List ZArith Lia Arith Bool Permutation Sorted ZifyNat ZifyBool.
From Verif Require Import Bytes Outcome BtModel BtSpec BtProofs BtProofs2 BtProofs3 BtProofs4 BtProofs5.
Import ListNotations.
Ltac Zify.zify_post_hook ::= Z.div_mod_to_equations.

(** ** Orders *)

Lemma asc_ascending l : asc l <-> ascending l.
Proof. reflexivity. Qed.

Lemma asc_unique (a b : list entry) : asc a -> asc b -> Permutation a b -> a = b.
Proof.
  revert b. induction a as [ | x a IH]; intros b Ha Hb P.
  - now apply Permutation_nil in P.
  - destruct b as [ | y b]; [apply Permutation_sym, Permutation_nil in P; discriminate | ].
    apply asc_cons in Ha as (Ha & Hx). apply asc_cons in Hb as (Hb & Hy).
    assert (E : x = y).
    { assert (H1 : In x (y :: b)) by (rewrite <- P; now left).
      assert (H2 : In y (x :: a)) by (rewrite P; now left).
      destruct H1 as [H1 | H1]; [congruence | ]. destruct H2 as [H2 | H2]; [congruence | ].
      specialize (Hx y H2). specialize (Hy x H1). lia. }
    subst y. f_equal. apply IH; auto. now apply Permutation_cons_inv in P.
Qed.

Lemma perm_short {A} (a b : list A) : Permutation a b -> length a <= 1 -> a = b.
Proof.
  intros P H. destruct a as [ | x [ | ]]; cbn in H; try lia.
  - now apply Permutation_nil in P.
  - now apply Permutation_length_1_inv in P.
Qed.

Lemma perm_filter {A} (f : A -> bool) a b : Permutation a b -> Permutation (filter f a) (filter f b).
Proof.
  intro H. induction H; cbn [filter].
  - constructor.
  - destruct (f x); auto.
  - destruct (f x), (f y); auto. constructor.
  - etransitivity; eassumption.
Qed.

Lemma one_per_key l k : asc l -> length (filter (fun e => fst e =? k)%Z l) <= 1.
Proof.
  intro Ha. induction l as [ | x l IH]; [cbn; lia | ].
  apply asc_cons in Ha as (Ha & Hx). cbn [filter]. destruct (fst x =? k)%Z eqn:E; [ | now apply IH].
  rewrite filter_none; [cbn; lia | ]. intros y Hy. specialize (Hx y Hy). lia.
Qed.

(** ** Checking a history *)

Definition careful_b (d : list entry) (o : op) : bool :=
  match o with
  | Append k _ => negb (has_key k d)
  | Remove k x => has_entry k x d
  | RemoveIndex k => has_key k d
  | Ascending _ _ _ limit | Descending _ _ _ limit => negb (limit =? 0)
  | _ => true
  end.
Fixpoint careful_all_b (d : list entry) (ops : list op) : bool :=
  match ops with [] => true | o :: ops' => careful_b d o && careful_all_b (after d o) ops' end.

Lemma careful_check : forall ops d, careful_all_b d ops = true -> careful_all d ops.
Proof.
  induction ops as [ | o ops IH]; intros d; [exact (fun _ => Logic.I) | ]. cbn [careful_all_b careful_all].
  rewrite andb_true_iff. intros (H & H'). split; [ | now apply IH].
  destruct o; cbn [careful_b careful] in *; auto.
  - intro Hk. apply has_key_in in Hk. now rewrite Hk in H.
  - now apply has_entry_in.
  - now apply has_key_in.
  - lia.
  - lia.
Qed.

(** ** Scans *)

Lemma asc_entries_spec pred lo hi rest : forall l limit, limit <> 0 -> asc (l ++ rest) ->
  firstn limit (filter (within pred lo hi) (l ++ rest)) =
    match asc_entries pred lo hi limit l with
    | (r, None) => r
    | (r, Some n) => r ++ firstn n (filter (within pred lo hi) rest)
    end /\
  (forall r n, asc_entries pred lo hi limit l = (r, Some n) -> n <> 0).
Proof.
  induction l as [ | e l IH]; intros limit Hl Ha.
  - cbn. split; [reflexivity | ]. congruence.
  - cbn [app] in Ha. pose proof Ha as Ha'. apply asc_cons in Ha as (Ha & He). cbn [asc_entries app].
    destruct (Z.ltb_spec hi (fst e)) as [H1 | H1].
    { rewrite filter_none; [rewrite firstn_nil; split; [reflexivity | congruence] | ].
      intros y [ <- | Hy]; unfold within; [lia | ]. specialize (He y Hy). lia. }
    cbn [filter]. unfold within at 1. replace (fst e <=? hi)%Z with true by lia.
    destruct (Z.ltb_spec (fst e) lo) as [H2 | H2].
    { replace (lo <=? fst e)%Z with false by lia. cbn [andb]. now apply IH. }
    replace (lo <=? fst e)%Z with true by lia. cbn [andb].
    destruct (pred e); [ | now apply IH].
    destruct (Nat.eqb_spec limit 1) as [ -> | H3].
    { cbn. split; [reflexivity | congruence]. }
    destruct limit as [ | n]; [congruence | ]. replace (S n - 1) with n by lia.
    destruct (IH n ltac:(lia) Ha) as (E1 & E2).
    destruct (asc_entries pred lo hi n l) as [r s] eqn:E. cbn [firstn]. rewrite E1.
    split; [destruct s; reflexivity | ]. intros r' n' E'. injection E' as <- ->. now apply (E2 r).
Qed.

Lemma asc_leaves_spec pred lo hi : forall ls limit, limit <> 0 -> asc (flat ls) ->
  asc_leaves pred lo hi limit ls = firstn limit (filter (within pred lo hi) (flat ls)).
Proof.
  induction ls as [ | l ls IH]; intros limit Hl Ha.
  - cbn. now rewrite firstn_nil.
  - cbn [flat_map asc_leaves] in *.
    destruct (asc_entries_spec pred lo hi (flat ls) (ents l) limit Hl Ha) as (E1 & E2). rewrite E1.
    pose proof Ha as Ha'. apply asc_app in Ha' as (_ & Ha' & _).
    destruct (ext_ltb (Fin hi) (lmin (ents l))) eqn:E.
    + rewrite <- E1. rewrite filter_none; [now rewrite firstn_nil | ].
      destruct (ents l) as [ | e r]; [discriminate | ]. cbn in E.
      intros y Hy. unfold within. cbn [app] in *. pose proof (asc_head e _ y Ha Hy). lia.
    + destruct (asc_entries pred lo hi limit (ents l)) as [r [n | ]]; [ | reflexivity].
      rewrite IH; [reflexivity | now apply (E2 r) | exact Ha'].
Qed.

Definition dsc := StronglySorted (fun a b : entry => (fst b < fst a)%Z).

Lemma dsc_app a b : dsc (a ++ b) <-> dsc a /\ dsc b /\ (forall x y, In x a -> In y b -> (fst y < fst x)%Z).
Proof.
  unfold dsc. induction a as [ | z a IH]; cbn [app].
  - split; [intro H; split; [constructor | split; [exact H | easy]] | intros (_ & H & _); exact H].
  - split.
    + intro H. inversion H as [ | ? ? H1 H2]; subst. apply IH in H1 as (A1 & A2 & A3).
      rewrite Forall_app in H2. destruct H2 as (F1 & F2). split; [now constructor | ]. split; [exact A2 | ].
      intros x y [ <- | Hx] Hy; [ | auto]. rewrite Forall_forall in F2. auto.
    + intros (H1 & H2 & H3). inversion H1 as [ | ? ? G1 G2]; subst. constructor.
      * apply IH. split; [exact G1 | ]. split; [exact H2 | ]. intros x y Hx Hy. apply H3; [now right | exact Hy].
      * apply Forall_app. split; [exact G2 | ]. apply Forall_forall. intros y Hy. apply H3; [now left | exact Hy].
Qed.

Lemma dsc_rev l : asc l -> dsc (rev l).
Proof.
  induction l as [ | x l IH]; intro H; [constructor | ]. apply asc_cons in H as (H & Hx). cbn [rev].
  apply dsc_app. split; [now apply IH | ]. split; [repeat constructor | ].
  intros a b Ha [ <- | []]. apply in_rev in Ha. now apply Hx.
Qed.

Lemma desc_entries_spec pred lo hi rest : forall l limit, limit <> 0 -> dsc (l ++ rest) ->
  firstn limit (filter (within pred lo hi) (l ++ rest)) =
    match desc_entries pred lo hi limit l with
    | (r, None) => r
    | (r, Some n) => r ++ firstn n (filter (within pred lo hi) rest)
    end /\
  (forall r n, desc_entries pred lo hi limit l = (r, Some n) -> n <> 0).
Proof.
  induction l as [ | e l IH]; intros limit Hl Ha.
  - cbn. split; [reflexivity | ]. congruence.
  - cbn [app] in Ha. inversion Ha as [ | ? ? Ha1 He]; subst. rewrite Forall_forall in He. cbn [desc_entries app].
    destruct (Z.ltb_spec (fst e) lo) as [H1 | H1].
    { rewrite filter_none; [rewrite firstn_nil; split; [reflexivity | congruence] | ].
      intros y [ <- | Hy]; unfold within; [lia | ]. specialize (He y Hy). lia. }
    cbn [filter]. unfold within at 1. replace (lo <=? fst e)%Z with true by lia.
    destruct (Z.ltb_spec hi (fst e)) as [H2 | H2].
    { replace (fst e <=? hi)%Z with false by lia. cbn [andb]. now apply IH. }
    replace (fst e <=? hi)%Z with true by lia. cbn [andb].
    destruct (pred e); [ | now apply IH].
    destruct (Nat.eqb_spec limit 1) as [ -> | H3].
    { cbn. split; [reflexivity | congruence]. }
    destruct limit as [ | n]; [congruence | ]. replace (S n - 1) with n by lia.
    destruct (IH n ltac:(lia) Ha1) as (E1 & E2).
    destruct (desc_entries pred lo hi n l) as [r s] eqn:E. cbn [firstn]. rewrite E1.
    split; [destruct s; reflexivity | ]. intros r' n' E'. injection E' as <- ->. now apply (E2 r).
Qed.

Lemma last_max e r y : asc (e :: r) -> In y (e :: r) -> (fst y <= fst (last (e :: r) e))%Z.
Proof.
  intros H Hy. destruct (exists_last (l := e :: r) ltac:(discriminate)) as (a & z & E).
  rewrite E in *. rewrite last_last. apply asc_app in H as (_ & _ & H).
  apply in_app_or in Hy as [Hy | [ <- | []]]; [ | lia].
  specialize (H y z Hy (or_introl eq_refl)). lia.
Qed.

Lemma rev_flat ls l : rev (flat (ls ++ [l])) = rev (ents l) ++ rev (flat ls).
Proof. rewrite flat_app, rev_app_distr. cbn [flat_map]. now rewrite app_nil_r. Qed.

Lemma desc_leaves_spec pred lo hi : forall ls limit, limit <> 0 -> asc (flat ls) ->
  desc_leaves pred lo hi limit (rev ls) = firstn limit (filter (within pred lo hi) (rev (flat ls))).
Proof.
  induction ls as [ | l ls IH] using rev_ind; intros limit Hl Ha.
  - cbn. now rewrite firstn_nil.
  - rewrite rev_app_distr. cbn [rev app desc_leaves]. pose proof (dsc_rev _ Ha) as Hd. rewrite rev_flat in *.
    destruct (desc_entries_spec pred lo hi (rev (flat ls)) (rev (ents l)) limit Hl Hd) as (E1 & E2). rewrite E1.
    rewrite flat_app in Ha. cbn [flat_map] in Ha. rewrite app_nil_r in Ha.
    pose proof Ha as Ha'. apply asc_app in Ha' as (Ha' & Hal & Hb).
    destruct (ext_ltb (lmax (ents l)) (Fin lo)) eqn:E.
    + rewrite <- E1. rewrite filter_none; [now rewrite firstn_nil | ].
      destruct (ents l) as [ | e r] eqn:El; [discriminate | ]. cbn [lmax ext_ltb] in E.
      intros y Hy. unfold within. apply in_app_or in Hy as [Hy | Hy]; apply in_rev in Hy.
      * pose proof (last_max e r y Hal Hy). lia.
      * specialize (Hb y e Hy (or_introl eq_refl)). pose proof (last_max e r e Hal (or_introl eq_refl)). lia.
    + destruct (desc_entries pred lo hi limit (rev (ents l))) as [r [n | ]]; [ | reflexivity].
      rewrite IH; [reflexivity | now apply (E2 r) | exact Ha'].
Qed.

Section Histories.
Variable M : nat.
Hypothesis HM : 12 <= M.
Notation m := (mincap M).
Notation Inv := (Inv M).

Lemma inv_sorted t d s : Inv t d -> in_order d s -> s = flat (leaves t).
Proof.
  intros Hi (P & A). apply asc_unique; [exact A | exact (I_asc M t d Hi) | ].
  rewrite P. symmetry. exact (I_perm M t d Hi).
Qed.

Lemma inv_locate t d k : Inv t d -> leaves t <> [] ->
  exists A l B, leaves t = A ++ l :: B /\ length A = find_leaf t (Fin k) /\ is_stuck t l = false /\
    (forall y, In y (flat A) -> (fst y < k)%Z) /\ (forall y, In y (flat B) -> (k < fst y)%Z).
Proof.
  intros Hi Hne. destruct (I_lv M t d Hi) as [(H & _) | Hl]; [congruence | ].
  destruct (locate_fin M HM (leaves t) (levels t) k (I_row M HM t d Hi) Hl) as (A & l & B & E & Hp & HA & HB).
  exists A, l, B. repeat split; auto. unfold is_stuck. now rewrite (I_stuck M t d Hi).
Qed.

Lemma get_items_ok t d k : Inv t d -> get_items t k = Ok (map snd (filter (fun e => fst e =? k)%Z d)).
Proof.
  intro Hi. pose proof (I_perm M t d Hi) as P.
  assert (G : map snd (filter (fun e => fst e =? k)%Z (flat (leaves t))) = map snd (filter (fun e => fst e =? k)%Z d)).
  { f_equal. apply perm_short; [now apply perm_filter | apply one_per_key, (I_asc M t d Hi)]. }
  rewrite <- G. unfold get_items. destruct (leaves t) as [ | l0 ls] eqn:E; [reflexivity | ].
  destruct (inv_locate t d k Hi ltac:(congruence)) as (A & l & B & EA & Hp & Hs & HA & HB).
  rewrite <- E, EA, <- Hp, nth_error_mid, Hs. rewrite flat_mid, !filter_app.
  rewrite (filter_none _ (flat A)), (filter_none _ (flat B)).
  - now rewrite app_nil_r.
  - intros y Hy. specialize (HB y Hy). lia.
  - intros y Hy. specialize (HA y Hy). lia.
Qed.

Lemma full_scan_ok t d : Inv t d -> full_scan t = Ok (flat (leaves t)).
Proof.
  intro Hi. unfold full_scan. destruct (leaves t) as [ | l0 ls] eqn:E; [reflexivity | ].
  destruct (I_lv M t d Hi) as [(H & _) | Hl]; [congruence | ].
  pose proof (I_row M HM t d Hi) as Hr.
  destruct (locate M HM (leaves t) (levels t) NegInf Hr Hl) as (A & l & B & EA & Hp & HA & _).
  rewrite <- E. unfold find_leaf. rewrite <- Hp.
  assert (A = []).
  { destruct HA as [HA | HA]; [exact HA | ]. destruct (ents l) eqn:El; [ | discriminate].
    exfalso. destruct Hr as (_ & Hf). apply (Hf l); [ | exact El]. rewrite EA. apply in_or_app. right. now left. }
  subst A. rewrite EA. cbn [length app nth_error skipn].
  unfold is_stuck. now rewrite (I_stuck M t d Hi).
Qed.

Lemma scan_ascending_ok t d pred lo hi limit : Inv t d -> limit <> 0 ->
  scan_ascending t pred lo hi limit = Ok (firstn limit (filter (within pred lo hi) (flat (leaves t)))).
Proof.
  intros Hi Hl. unfold scan_ascending. pose proof (I_asc M t d Hi) as Ha.
  destruct (leaves t) as [ | l0 ls] eqn:E; [cbn; now rewrite firstn_nil | ].
  destruct (inv_locate t d lo Hi ltac:(congruence)) as (A & l & B & EA & Hp & Hs & HA & HB).
  rewrite <- E in *. rewrite EA in *. rewrite <- Hp, nth_error_mid, Hs.
  replace (limit =? 0) with false by lia. rewrite skipn_mid.
  rewrite flat_app in Ha |- *. pose proof Ha as Ha'. apply asc_app in Ha' as (_ & Ha' & _).
  rewrite asc_leaves_spec by assumption. rewrite filter_app, (filter_none _ (flat A)); [reflexivity | ].
  intros y Hy. specialize (HA y Hy). unfold within. lia.
Qed.

Lemma scan_decending_ok t d pred lo hi limit : Inv t d -> limit <> 0 ->
  scan_decending t pred lo hi limit = Ok (firstn limit (filter (within pred lo hi) (rev (flat (leaves t))))).
Proof.
  intros Hi Hl. unfold scan_decending. pose proof (I_asc M t d Hi) as Ha.
  destruct (leaves t) as [ | l0 ls] eqn:E; [cbn; now rewrite firstn_nil | ].
  destruct (inv_locate t d hi Hi ltac:(congruence)) as (A & l & B & EA & Hp & Hs & HA & HB).
  rewrite <- E in *. rewrite EA in *. rewrite <- Hp, nth_error_mid, Hs.
  replace (limit =? 0) with false by lia.
  replace (A ++ l :: B) with ((A ++ [l]) ++ B) in * by (rewrite <- app_assoc; reflexivity).
  replace (S (length A)) with (length (A ++ [l])) by (rewrite app_length; cbn; lia).
  rewrite firstn_mid.
  rewrite flat_app in Ha |- *. pose proof Ha as Ha'. apply asc_app in Ha' as (Ha' & _ & _).
  rewrite desc_leaves_spec by assumption. rewrite rev_app_distr, filter_app, (filter_none _ (rev (flat B))); [reflexivity | ].
  intros y Hy. apply in_rev in Hy. specialize (HB y Hy). unfold within. lia.
Qed.

(** ** Load *)

Lemma sum_bounds g : Forall (bounds M) g -> length g * m <= list_sum g.
Proof.
  induction 1 as [ | c g Hc Hg IH]; [reflexivity | ]. rewrite sum_cons. cbn [length]. unfold bounds in Hc. lia.
Qed.

Lemma pack_level_ok : forall fuel c, m <= c -> c <= fuel ->
  list_sum (pack_level M fuel c) = c /\ Forall (bounds M) (pack_level M fuel c).
Proof.
  pose proof (m3 M HM) as H3. pose proof (m_M M HM) as H2.
  induction fuel as [ | fuel IH]; intros c H1 Hf; [lia | ]. destruct c as [ | c]; [lia | ]. cbn [pack_level].
  destruct (Nat.leb_spec ((M + m) / 2 + m) (S c)) as [H | H].
  - destruct (IH (S c - (M + m) / 2) ltac:(lia) ltac:(lia)) as (E1 & E2).
    rewrite sum_cons, E1. split; [lia | ]. constructor; [unfold bounds; lia | exact E2].
  - split; [cbn; lia | ]. constructor; [ | constructor]. unfold bounds, mincap in *. lia.
Qed.

Lemma pack_ok N : forall fuel c below, 1 <= c -> c <= fuel -> pre M (rev below) N c ->
  lvok M (rev (pack M fuel c below)) N.
Proof.
  pose proof (m3 M HM) as H3. pose proof (m_M M HM) as H2.
  induction fuel as [ | fuel IH]; intros c below H1 Hf Hp; [lia | ]. cbn [pack].
  destruct (Nat.leb_spec c 1) as [H | H].
  { apply (pre_lvok M HM). replace 1 with c by lia. exact Hp. }
  destruct (Nat.leb_spec ((M + m) / 2 + m) c) as [Hc | Hc].
  - destruct (pack_level_ok c c ltac:(lia) ltac:(lia)) as (E1 & E2).
    pose proof (sum_bounds _ E2) as E3.
    set (g := pack_level M c c) in *. cbn zeta.
    assert (length g <> 0). { intro E. destruct g; [cbn in E1; lia | discriminate]. }
    apply IH; [lia | nia | ]. cbn [rev]. apply pre_snoc. exists c. auto.
  - assert (Eg : pack_level M c c = [c]).
    { destruct c as [ | c]; [lia | ]. cbn [pack_level]. now replace ((M + m) / 2 + m <=? S c) with false by lia. }
    rewrite Eg. cbn [length]. destruct fuel as [ | fuel]; [lia | ]. cbn [pack Nat.leb rev].
    apply lvok_app. exists c. split; [exact Hp | ]. cbn [BtProofs2.lvok length].
    split; [cbn; lia | ]. split; [reflexivity | ]. exists c. split; [reflexivity | ]. unfold mincap in *. lia.
Qed.

Lemma inv_load ls : ls <> [] -> asc (flat ls) -> Forall (fun l => 1 <= length (ents l) <= M) ls ->
  (2 <= length ls -> Forall (fun l => m <= length (ents l)) ls) ->
  Inv (load M (Z.of_nat (length (flat ls))) ls) (flat ls).
Proof.
  intros Hne Ha Hs Hm. constructor; cbn [leaves levels icount stuck load]; auto.
  right. apply pack_ok; [ | lia | reflexivity]. destruct ls; [congruence | cbn; lia].
Qed.

Lemma inv_perm t d d' : Permutation d d' -> Inv t d -> Inv t d'.
Proof.
  intros P [H1 H2 H3 H4 H5 H6 H7]. constructor; auto.
  - now rewrite H2.
  - now rewrite <- (Permutation_length P).
Qed.

Lemma inv_reload t d : Inv t d -> leaves t <> [] -> Inv (load M (icount t) (leaves t)) d.
Proof.
  intros Hi Hne. pose proof Hi as [H1 H2 H3 H4 H5 H6 H7]. apply (inv_perm _ _ _ H2).
  rewrite H3, <- (Permutation_length H2). now apply inv_load.
Qed.

(** ** Histories *)

Lemma step_ok t d o : Inv t d -> careful d o ->
  exists r t', step M t o = Ok (r, t') /\ answer d o r /\ Inv t' (after d o).
Proof.
  intros Hi Hc. destruct o as [k x | k x | k | k | | | pred lo hi limit | pred lo hi limit]; cbn [step careful answer] in *.
  - destruct (append_ok M HM t d k x Hi Hc) as (t' & E & Hi'). rewrite E. cbn [rbind]. eexists _, _. eauto.
  - destruct (remove_ok M HM t d k x Hi Hc) as (t' & E & Hi'). rewrite E. cbn [rbind]. eexists _, _. eauto.
  - destruct (remove_index_ok M HM t d k Hi Hc) as (t' & E & Hi'). rewrite E. cbn [rbind]. eexists _, _. eauto.
  - rewrite (get_items_ok t d k Hi). cbn [rbind]. eexists _, _. eauto.
  - eexists _, _. split; [reflexivity | ]. split; [ | exact Hi]. exact (I_ic M t d Hi).
  - rewrite (full_scan_ok t d Hi). cbn [rbind]. eexists _, _. split; [reflexivity | ]. split; [ | exact Hi].
    split; [exact (I_perm M t d Hi) | exact (I_asc M t d Hi)].
  - rewrite (scan_ascending_ok t d _ _ _ _ Hi Hc). cbn [rbind]. eexists _, _. split; [reflexivity | ].
    split; [ | exact Hi]. intros s Hs. now rewrite (inv_sorted t d s Hi Hs).
  - rewrite (scan_decending_ok t d _ _ _ _ Hi Hc). cbn [rbind]. eexists _, _. split; [reflexivity | ].
    split; [ | exact Hi]. intros s Hs. now rewrite (inv_sorted t d s Hi Hs).
Qed.

Lemma run_ok : forall ops t d, Inv t d -> careful_all d ops ->
  exists rs t', run M t ops = Ok (rs, t') /\ answers d ops rs /\ Inv t' (fold_left after ops d).
Proof.
  induction ops as [ | o ops IH]; intros t d Hi Hc.
  - exists [], t. cbn. auto.
  - cbn [careful_all] in Hc. destruct Hc as (Hc & Hcs).
    destruct (step_ok t d o Hi Hc) as (r & t1 & E & Ha & Hi1).
    destruct (IH t1 _ Hi1 Hcs) as (rs & t2 & E2 & Has & Hi2).
    exists (r :: rs), t2. cbn [run]. rewrite E. cbn [rbind]. rewrite E2. cbn [rbind answers fold_left]. auto.
Qed.

Lemma sessions_ok : forall ss t d, Inv t d -> careful_sessions d ss ->
  exists rss, sessions M t ss = Ok rss /\ answers_sessions d ss rss.
Proof.
  induction ss as [ | ops ss IH]; intros t d Hi Hc.
  - exists []. cbn. auto.
  - cbn [careful_sessions] in Hc. destruct Hc as (Hc & Hne & Hcs).
    destruct (run_ok ops t d Hi Hc) as (rs & t1 & E & Ha & Hi1).
    assert (Hl : leaves t1 <> []).
    { intro E0. pose proof (I_perm M _ _ Hi1) as P. rewrite E0 in P. cbn in P. apply Permutation_nil in P. congruence. }
    destruct (IH _ _ (inv_reload t1 _ Hi1 Hl) Hcs) as (rss & E2 & Has).
    exists (rs :: rss). cbn [sessions answers_sessions]. rewrite E. cbn [rbind].
    destruct (leaves t1) as [ | l ls]; [congruence | ]. rewrite E2. cbn [rbind]. auto.
Qed.

(** ** A removal that finds nothing keeps a lock *)

Lemma many_leaves t d : Inv t d -> M < length d -> 2 <= length (leaves t).
Proof.
  intros Hi Hd. pose proof (Permutation_length (I_perm M t d Hi)) as L. pose proof (I_sz M t d Hi) as Hs.
  destruct (leaves t) as [ | l [ | l2 ls]] eqn:E; cbn [length flat_map] in *; [lia | | lia].
  cbn [flat_map] in L. rewrite app_nil_r in L. inversion Hs as [ | ? ? Hl _]; subst. cbn beta in Hl. lia.
Qed.

Lemma absent_locks t d k : Inv t d -> M < length d -> ~ In k (map fst d) ->
  forall rm delta lc, exists t', remove_gen M rm delta lc t k = Ok (false, t') /\ get_items t' k = Err Diverge.
Proof.
  intros Hi Hd Hk rm delta lc. pose proof (many_leaves t d Hi Hd) as H2.
  destruct (inv_locate t d k Hi) as (A & l & B & E & Hp & Hs & _); [intro E; rewrite E in H2; cbn in H2; lia | ].
  assert (Hkl : has_key k (ents l) = false).
  { destruct (has_key k (ents l)) eqn:Eh; [ | reflexivity]. exfalso. apply Hk. apply has_key_in in Eh.
    rewrite <- (I_perm M t d Hi), E, flat_mid, !map_app. apply in_or_app. right. apply in_or_app. now left. }
  unfold find_leaf in Hp. unfold remove_gen, get_items, find_leaf.
  assert (Hn : nth_error (leaves t) (length A) = Some l) by (rewrite E; apply nth_error_mid). clear E.
  destruct (leaves t) as [ | l0 [ | l1 ls]]; cbn [length] in H2; try lia.
  cbn zeta. rewrite <- Hp, Hn, Hs.
  destruct (walk _ _ _ _ _ _) as [record n]. rewrite Hkl. cbn [negb].
  eexists. split; [reflexivity | ]. cbn [leaves levels]. rewrite <- Hp, Hn.
  unfold is_stuck. cbn [stuck existsb]. now rewrite Nat.eqb_refl.
Qed.

Lemma lock_kept ops rs t k x : careful_all [] ops -> run M bt0 ops = Ok (rs, t) ->
  M < length (fold_left after ops []) -> ~ In k (map fst (fold_left after ops [])) ->
  run M t [RemoveIndex k; Get k] = Err Diverge /\ run M t [Remove k x; Get k] = Err Diverge.
Proof.
  intros Hc Hr Hd Hk. destruct (run_ok ops bt0 [] (inv_bt0 M) Hc) as (rs' & t' & E & _ & Hi).
  rewrite E in Hr. injection Hr as -> ->.
  split; cbn [run step]; unfold remove_index, remove.
  - destruct (absent_locks t _ k Hi Hd Hk (leaf_remove_index k) (fun l => Z.of_nat (length (items_of k l))) uniq) as (t1 & E1 & E2).
    rewrite E1. cbn [rbind]. now rewrite E2.
  - destruct (absent_locks t _ k Hi Hd Hk (leaf_remove k x) (fun _ => 1%Z) (@length _)) as (t1 & E1 & E2).
    rewrite E1. cbn [rbind]. now rewrite E2.
Qed.

End Histories.
