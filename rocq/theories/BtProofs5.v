(** * Proofs about the B+-tree: removal *)
From Coq Require Import List ZArith Lia Arith Bool Permutation Sorted ZifyNat ZifyBool.
From Verif Require Import Bytes Outcome BtModel BtSpec BtProofs BtProofs2 BtProofs3 BtProofs4.
Import ListNotations.
Ltac Zify.zify_post_hook ::= Z.div_mod_to_equations.

Section Remove.
Variable M : nat.
Hypothesis HM : 12 <= M.
Notation m := (mincap M).
Notation lvok := (lvok M).
Notation Inv := (Inv M).

Definition without (k : Z) (l : list entry) : list entry := filter (fun e => negb (fst e =? k)%Z) l.

Lemma without_id k l : (forall y, In y l -> fst y <> k) -> without k l = l.
Proof. intro H. apply filter_id. intros y Hy. specialize (H y Hy). lia. Qed.

Lemma without_app k a b : without k (a ++ b) = without k a ++ without k b.
Proof. apply filter_app. Qed.

(** a row whose leaf has lost an index *)
Lemma perm_without A l B k d :
  (forall y, In y A -> (fst y < k)%Z) -> (forall y, In y B -> (k < fst y)%Z) ->
  Permutation (A ++ l ++ B) d -> Permutation (A ++ without k l ++ B) (without k d).
Proof.
  intros HA HB H.
  assert (E : A ++ without k l ++ B = without k (A ++ l ++ B)).
  { rewrite !without_app, (without_id k A), (without_id k B); [reflexivity | | ].
    - intros y Hy. specialize (HB y Hy). lia.
    - intros y Hy. specialize (HA y Hy). lia. }
  rewrite E. clear E. unfold without. induction H; cbn [filter].
  - constructor.
  - destruct (negb (fst x =? k)%Z); auto.
  - destruct (negb (fst x =? k)%Z), (negb (fst y =? k)%Z); auto. constructor.
  - etransitivity; eassumption.
Qed.

Lemma asc_without A l B k : asc (A ++ l ++ B) -> asc (A ++ without k l ++ B).
Proof.
  intro H. rewrite !asc_app in *. rewrite !below_app_r in *. destruct H as (H1 & (H2 & H3 & H4) & H5 & H6).
  assert (S : forall y, In y (without k l) -> In y l) by (intros y Hy; apply filter_In in Hy; tauto).
  repeat split; auto.
  - now apply asc_filter.
  - intros x y Hx Hy. apply H4; auto.
  - intros x y Hx Hy. apply H5; auto.
Qed.

Lemma count_down t d k : Inv t d -> In k (map fst d) ->
  (icount t - 1)%Z = Z.of_nat (length (without k d)).
Proof.
  intros Hi Hk. rewrite (I_ic M t d Hi).
  pose proof (I_perm M t d Hi) as P. pose proof (I_asc M t d Hi) as Ha.
  assert (Hk' : In k (map fst (flat (leaves t)))) by (rewrite P; exact Hk).
  pose proof (filter_key_length _ k Ha Hk') as E.
  pose proof (Permutation_length P) as E2.
  assert (E3 : length (without k (flat (leaves t))) = length (without k d)).
  { apply Permutation_length. clear - P. unfold without. induction P; cbn [filter].
    - constructor.
    - destruct (negb (fst x =? k)%Z); auto.
    - destruct (negb (fst x =? k)%Z), (negb (fst y =? k)%Z); auto. constructor.
    - etransitivity; eassumption. }
  unfold without in *. lia.
Qed.

Lemma last_in {A} (x : A) l : In (last (x :: l) x) (x :: l).
Proof.
  assert (H : forall (l : list A) (x d : A), In (last (x :: l) d) (x :: l)).
  { clear. induction l as [ | y l IH]; intros x d; [now left | ]. right. exact (IH y d). }
  apply H.
Qed.

Lemma lmax_lmin_lt a b : asc (a ++ b) -> a <> [] -> b <> [] -> ext_ltb (lmax a) (lmin b) = true.
Proof.
  intros H Ha Hb. destruct a as [ | x a]; [congruence | ]. destruct b as [ | y b]; [congruence | ].
  cbn [lmax lmin ext_ltb]. apply asc_app in H as (_ & _ & H). apply Z.ltb_lt, H; [apply last_in | now left].
Qed.

Lemma lmax_lmin_ge a b : asc (a ++ b) -> a <> [] -> b <> [] -> ext_ltb (lmax b) (lmin a) = false.
Proof.
  intros H Ha Hb. destruct a as [ | x a]; [congruence | ]. destruct b as [ | y b]; [congruence | ].
  cbn [lmax lmin ext_ltb]. apply asc_app in H as (_ & _ & H). apply Z.ltb_ge.
  specialize (H x (last (y :: b) y) (or_introl eq_refl) (last_in _ _)). lia.
Qed.

Lemma merge_right e o : asc (e ++ o) -> e <> [] -> o <> [] -> leaf_merge o e = e ++ o.
Proof. intros H He Ho. unfold leaf_merge. now rewrite lmax_lmin_lt. Qed.

Lemma merge_left e o : asc (o ++ e) -> e <> [] -> o <> [] -> leaf_merge o e = o ++ e.
Proof. intros H He Ho. unfold leaf_merge. now rewrite lmax_lmin_ge. Qed.

(** balancing with a larger neighbour moves entries over the border and leaves the row as it is *)
Lemma balance_right e o : asc (e ++ o) -> e <> [] -> length e < length o ->
  exists e1 o1, leaf_balance e o = (e1, o1) /\ e1 ++ o1 = e ++ o /\
    length e1 = (length e + length o) / 2.
Proof.
  intros H He Hlt. assert (Ho : o <> []) by (intros ->; cbn in Hlt; lia).
  pose proof H as H'. apply asc_app in H' as (A1 & A2 & _).
  unfold leaf_balance, balance_with. rewrite !asc_uniq by assumption.
  replace (length o <? length e) with false by lia.
  rewrite lmax_lmin_ge by assumption. rewrite asc_cut by exact A2.
  eexists _, _. split; [reflexivity | ]. split; [now rewrite <- app_assoc, firstn_skipn | ].
  rewrite app_length, firstn_length. lia.
Qed.

Lemma balance_left e o : asc (o ++ e) -> e <> [] -> length e < length o ->
  exists e1 o1, leaf_balance e o = (e1, o1) /\ o1 ++ e1 = o ++ e /\
    length e1 = (length e + length o) / 2.
Proof.
  intros H He Hlt. assert (Ho : o <> []) by (intros ->; cbn in Hlt; lia).
  pose proof H as H'. apply asc_app in H' as (A1 & A2 & _).
  unfold leaf_balance, balance_with. rewrite !asc_uniq by assumption.
  replace (length o <? length e) with false by lia.
  rewrite lmax_lmin_lt by assumption. rewrite asc_cut by exact A1.
  eexists _, _. split; [reflexivity | ]. split; [now rewrite app_assoc, firstn_skipn | ].
  rewrite app_length, skipn_length. lia.
Qed.

Lemma ne_length {A} (l : list A) : 1 <= length l -> l <> [].
Proof. intros H ->. cbn in H. lia. Qed.

Lemma remove_gen_ok rm delta left_count t d k :
  Inv t d -> In k (map fst d) ->
  (forall l, asc l -> In k (map fst l) -> (forall e, In e d -> fst e = k -> In e l) ->
     rm l = (true, without k l) /\ delta l = 1%Z) ->
  (forall l, asc l -> left_count l = length l) ->
  exists t', remove_gen M rm delta left_count t k = Ok (true, t') /\ Inv t' (without k d).
Proof.
  intros Hi Hk Hrm Hlc. pose proof (I_row M HM t d Hi) as Hr. pose proof (count_down t d k Hi Hk) as Hcd.
  assert (Hk' : In k (map fst (flat (leaves t)))) by (rewrite (I_perm M t d Hi); exact Hk).
  pose proof (m3 M HM) as Hm3. pose proof (m_M M HM) as HmM.
  destruct Hi as [Iasc Iperm _ Istuck Ilv Isz Imin].
  destruct t as [ls lv ic lc ms st]. cbn [leaves levels icount stuck] in *. subst st.
  unfold remove_gen. cbn [leaves levels icount lcount missed stuck].
  destruct ls as [ | l0 ls]; [easy | ].
  destruct Ilv as [(H & _) | Ilv]; [discriminate | ].
  assert (HInd : forall A l B, flat A ++ ents l ++ flat B = flat (l0 :: ls) ->
     (forall y, In y (flat A) -> (fst y < k)%Z) -> (forall y, In y (flat B) -> (k < fst y)%Z) ->
     forall e, In e d -> fst e = k -> In e (ents l)).
  { intros A l B E HA HB e He Ek. rewrite <- Iperm, <- E in He.
    apply in_app_or in He as [He | He]; [specialize (HA e He); lia | ].
    apply in_app_or in He as [He | He]; [exact He | ]. specialize (HB e He). lia. }
  destruct ls as [ | l1 ls].
  - (* the root is a leaf *)
    pose proof (lvok_one M HM _ Ilv) as E. apply (f_equal (@rev _)) in E. rewrite rev_involutive in E. cbn in E. subst lv.
    specialize (HInd [] l0 [] eq_refl ltac:(easy) ltac:(easy)).
    cbn [flat_map] in *. rewrite app_nil_r in *.
    inversion Isz as [ | ? ? Hl _]; subst.
    destruct (Hrm (ents l0) Iasc Hk' HInd) as (E1 & E2). rewrite E1, E2.
    pose proof (perm_without [] (ents l0) [] k d ltac:(easy) ltac:(easy)) as P.
    cbn [app] in P. rewrite !app_nil_r in P. specialize (P Iperm).
    pose proof (filter_key_length _ k Iasc Hk') as L. fold (without k (ents l0)) in L.
    pose proof (asc_filter (fun e => negb (fst e =? k)%Z) _ Iasc) as F. fold (without k (ents l0)) in F.
    destruct (without k (ents l0)) as [ | e r] eqn:Ew.
    + eexists. split; [reflexivity | ].
      constructor; cbn [leaves levels icount stuck flat_map]; auto; try constructor.
    + eexists. split; [reflexivity | ].
      constructor; cbn [leaves levels icount stuck flat_map ents length rev]; rewrite ?app_nil_r; auto.
      * constructor; [ | constructor]. cbn [ents length] in *. lia.
      * lia.
  - (* inner nodes *)
    set (ls' := l0 :: l1 :: ls) in *.
    assert (Hlv : lv <> []). { intros ->. cbn in Ilv. lia. }
    assert (H2 : 2 <= length ls') by (subst ls'; cbn; lia). specialize (Imin H2).
    destruct (locate_fin M HM ls' lv k Hr Ilv) as (A & l & B & E & Hp & HA & HB).
    specialize (HInd A l B ltac:(rewrite E, flat_mid; reflexivity) HA HB).
    clearbody ls'. subst ls'. rewrite <- Hp, nth_error_mid.
    unfold is_stuck. cbn [stuck existsb].
    pose proof (row_leaf _ _ _ Hr) as Hal. rewrite flat_mid in Iasc, Iperm, Hk'.
    assert (Hkl : In k (map fst (ents l))).
    { rewrite in_map_iff in Hk. destruct Hk as (e & Ee & He). apply in_map_iff. exists e. split; [exact Ee | ].
      now apply HInd. }
    apply forall_mid in Isz as (SA & Sl & SB). apply forall_mid in Imin as (MA & Ml & MB).
    rewrite asc_uniq by exact Hal.
    pose proof (stack_size M HM (A ++ l :: B) lv (Fin k) (fun c => m <? c) (fun c => c =? m) (length (ents l))
        (hd 0 (counts lv (path (A ++ l :: B) lv 0 (Fin k))) =? 1) Hr Ilv Hlv) as Hst.
    destruct (walk _ _ _ _ _ _) as [record n]. cbn [snd] in Hst.
    replace (has_key k (ents l)) with true by (symmetry; now apply has_key_in). cbn [negb].
    destruct (Hrm (ents l) Hal Hkl HInd) as (E1 & E2). rewrite E1, E2.
    pose proof (perm_without _ _ _ k d HA HB Iperm) as P.
    pose proof (asc_without _ _ _ k Iasc) as Q.
    pose proof (filter_key_length _ k Hal Hkl) as L. fold (without k (ents l)) in L.
    set (e := without k (ents l)) in *. clearbody e.
    destruct (Nat.ltb_spec m (length (ents l))) as [Hu | Hu].
    + eexists. split; [reflexivity | ]. rewrite set_mid.
      constructor; cbn [leaves levels icount stuck]; rewrite ?flat_mid; cbn [ents]; auto.
      * right. rewrite app_length in *. exact Ilv.
      * apply forall_mid. split; [exact SA | ]. split; [cbn [ents]; lia | exact SB].
      * intros _. apply forall_mid. split; [exact MA | ]. split; [cbn [ents]; lia | exact MB].
    + assert (Hm : length (ents l) = m) by lia.
      rewrite Hst by (unfold bounds; lia). clear Hst.
      destruct (path_posn M HM (A ++ l :: B) lv (Fin k) Hr Ilv) as (P1 & P2).
      assert (Hrl : rev lv <> []).
      { intro E0. apply Hlv. now apply (f_equal (@rev _)) in E0; rewrite rev_involutive in E0. }
      (* a merge: one leaf less, the row unchanged *)
      assert (Merge : forall ls', flat ls' = flat A ++ e ++ flat B -> S (length ls') = length (A ++ l :: B) ->
         Forall (fun l => m <= length (ents l) <= M) ls' ->
         exists t', (do lv' <- shrink_up M [] (rev lv) (tl (rev (path (A ++ l :: B) lv 0 (Fin k))))
             (R (fun c => m <? c) (bcounts (rev lv) (tl (rev (path (A ++ l :: B) lv 0 (Fin k))))) - 1);
           Ok (true, mkbt ls' lv' (ic - 1) (lc - 1) (ms ++ [lid l]) [])) = Ok (true, t') /\ Inv t' (without k d)).
      { intros ls' F1 F2 F3.
        destruct (shrink_up_ok M HM (length ls') (rev lv) [] (tl (rev (path (A ++ l :: B) lv 0 (Fin k))))
                    (length ls') (last (path (A ++ l :: B) lv 0 (Fin k)) 0)) as (lv' & Es & Hlv').
        { reflexivity. } { rewrite F2. exact Ilv. } { exact Hrl. } { exact P1. }
        rewrite Es. cbn [rbind]. eexists. split; [reflexivity | ].
        constructor; cbn [leaves levels icount stuck]; rewrite ?F1; auto.
        - revert F3. apply Forall_impl. intros x Hx. lia.
        - intros _. revert F3. apply Forall_impl. intros x Hx. lia. }
      (* a balance: the same number of leaves, the row unchanged *)
      assert (Balance : forall ls', flat ls' = flat A ++ e ++ flat B -> length ls' = length (A ++ l :: B) ->
         Forall (fun l => m <= length (ents l) <= M) ls' ->
         exists t', Ok (true, mkbt ls' lv (ic - 1) lc ms []) = Ok (true, t') /\ Inv t' (without k d)).
      { intros ls' F1 F2 F3. eexists. split; [reflexivity | ].
        constructor; cbn [leaves levels icount stuck]; rewrite ?F1; auto.
        - right. rewrite F2. exact Ilv.
        - revert F3. apply Forall_impl. intros x Hx. lia.
        - intros _. revert F3. apply Forall_impl. intros x Hx. lia. }
      assert (FA : Forall (fun l => m <= length (ents l) <= M) A).
      { rewrite Forall_forall in *. intros x Hx. specialize (SA x Hx). specialize (MA x Hx). lia. }
      assert (FB : Forall (fun l => m <= length (ents l) <= M) B).
      { rewrite Forall_forall in *. intros x Hx. specialize (SB x Hx). specialize (MB x Hx). lia. }
      clear SA MA SB MB Sl Ml.
      assert (Hene : e <> []) by (apply ne_length; lia).
      change (share M) with (M / 2). cbn [negb].
      (* the neighbours *)
      assert (Left : forall o', (if length A =? 0 then None else nth_error (A ++ l :: B) (length A - 1)) = Some o' ->
         exists A', A = A' ++ [o'] /\ length A - 1 = length A').
      { intros o' Ho. destruct (length A =? 0) eqn:E0; [discriminate | ].
        destruct (exists_last (l := A)) as (A' & o & ->); [intros -> ; discriminate | ].
        rewrite app_length in *. cbn [length] in *. replace (length A' + 1 - 1) with (length A') in * by lia.
        rewrite <- app_assoc in Ho. cbn [app] in Ho. rewrite nth_error_mid in Ho. injection Ho as ->. now exists A'. }
      assert (MergeL : forall A' o', A = A' ++ [o'] -> length (ents o') <= M / 2 ->
         asc (ents o') -> asc (ents o' ++ e) /\
         leaf_merge (ents o') e = ents o' ++ e /\
         flat (A' ++ mkleaf (lid o') (ents o' ++ e) :: B) = flat A ++ e ++ flat B /\
         Forall (fun l => m <= length (ents l) <= M) (A' ++ mkleaf (lid o') (ents o' ++ e) :: B)).
      { intros A' o' -> Ho Hao.
        rewrite flat_app in Q. cbn [flat_map] in Q. rewrite app_nil_r in Q.
        assert (Aoe : asc (ents o' ++ e)).
        { rewrite <- app_assoc in Q. apply asc_app in Q as (_ & Q & _). rewrite app_assoc in Q.
          now apply asc_app in Q as (Q & _). }
        apply Forall_app in FA as (FA & Fo). inversion Fo as [ | ? ? Fo' _]; subst.
        split; [exact Aoe | ]. split; [apply merge_left; auto; apply ne_length; lia | ]. split.
        - rewrite flat_mid, flat_app. cbn [flat_map ents]. rewrite app_nil_r. now rewrite <- !app_assoc.
        - apply forall_mid. split; [exact FA | ]. split; [ | exact FB]. cbn [ents]. rewrite app_length.
          unfold mincap in *. lia. }
      destruct B as [ | o B].
      * (* no right neighbour *)
        replace (nth_error (A ++ [l]) (S (length A))) with (@None leaf)
          by (symmetry; apply nth_error_None; rewrite app_length; cbn; lia).
        destruct (if length A =? 0 then None else nth_error (A ++ [l]) (length A - 1)) as [o' | ] eqn:El.
        -- destruct (Left o' eq_refl) as (A' & -> & Hl').
           rewrite Hl'.
           assert (Hao : asc (ents o')).
           { rewrite <- app_assoc in Hr. exact (row_leaf A' o' ([l] ++ []) Hr). }
           rewrite Hlc by exact Hao.
           destruct (Nat.leb_spec (length (ents o')) (M / 2)) as [Ho | Ho].
           ++ destruct (MergeL A' o' eq_refl Ho Hao) as (_ & M1 & M2 & M3). rewrite M1.
              rewrite <- (app_assoc A' [o'] [l]). cbn [app]. rewrite set_mid.
              replace (A' ++ mkleaf (lid o') (ents o' ++ e) :: [l])
                with ((A' ++ [mkleaf (lid o') (ents o' ++ e)]) ++ [l]) by (rewrite <- app_assoc; reflexivity).
              replace (length (A' ++ [o'])) with (length (A' ++ [mkleaf (lid o') (ents o' ++ e)]))
                by (rewrite !app_length; reflexivity).
              rewrite del_mid. rewrite app_nil_r.
              specialize (Merge (A' ++ [mkleaf (lid o') (ents o' ++ e)]) M2).
              rewrite <- (app_assoc A' [o'] [l]) in Merge. cbn [app] in Merge.
              apply Merge; [rewrite !app_length; cbn [length]; lia | exact M3].
           ++ rewrite flat_app in Q. cbn [flat_map] in Q. rewrite !app_nil_r in Q.
              assert (Aoe : asc (ents o' ++ e)). { rewrite <- app_assoc in Q. now apply asc_app in Q as (_ & Q & _). }
              apply Forall_app in FA as (FA & Fo). inversion Fo as [ | ? ? Fo' _]; subst.
              destruct (balance_left e (ents o') Aoe Hene ltac:(lia)) as (e1 & o1 & B1 & B2 & B3).
              pose proof (f_equal (@length _) B2) as B4. rewrite !app_length in B4.
              rewrite B1, set_mid, <- (app_assoc A' [o']). cbn [app]. rewrite set_mid.
              apply Balance.
              ** rewrite flat_mid, flat_app. cbn [flat_map ents]. rewrite !app_nil_r, B2. now rewrite <- app_assoc.
              ** rewrite !app_length. cbn [length]. lia.
              ** apply forall_mid. split; [exact FA | ]. split; [cbn [ents] | constructor; [cbn [ents] | constructor] ];
                   unfold mincap in *; clear - B3 B4 L Hm Ho Fo' HM; lia.
        -- exfalso. rewrite app_length in H2. cbn [length] in H2.
           replace (length A =? 0) with false in El by lia.
           apply nth_error_None in El. rewrite app_length in El. cbn in El. lia.
      * replace (nth_error (A ++ l :: o :: B) (S (length A))) with (Some o).
        2:{ symmetry. rewrite nth_error_app2 by lia. replace (S (length A) - length A) with 1 by lia. reflexivity. }
        inversion FB as [ | ? ? Fo FB']; subst.
        assert (Hao : asc (ents o)).
        { apply (row_leaf (A ++ [l]) o B). now rewrite <- app_assoc. }
        cbn [flat_map] in Q, P, Merge, Balance, MergeL.
        assert (Aeo : asc (e ++ ents o)).
        { apply asc_app in Q as (_ & Q & _). rewrite app_assoc in Q. now apply asc_app in Q as (Q & _). }
        rewrite asc_uniq by exact Hao.
        replace (set_nth (S (length A)) (mkleaf (lid o) (leaf_merge (ents o) e)) (A ++ l :: o :: B))
          with (A ++ l :: mkleaf (lid o) (leaf_merge (ents o) e) :: B).
        2:{ replace (S (length A)) with (length (A ++ [l])) by (rewrite app_length; cbn; lia).
            replace (A ++ l :: o :: B) with ((A ++ [l]) ++ o :: B) by (rewrite <- app_assoc; reflexivity).
            rewrite set_mid, <- app_assoc. reflexivity. }
        destruct (Nat.leb_spec (length (ents o)) (M / 2)) as [Ho | Ho].
        -- rewrite del_mid, merge_right by (auto; apply ne_length; lia).
           apply Merge.
           ++ rewrite flat_mid. cbn [ents]. now rewrite <- app_assoc.
           ++ rewrite !app_length. cbn [length]. lia.
           ++ apply forall_mid. split; [exact FA | ]. split; [ | exact FB']. cbn [ents]. rewrite app_length.
              unfold mincap in *. lia.
        -- assert (Bal : exists t', (let '(e1, o1) := leaf_balance e (ents o) in
               Ok (true, mkbt (set_nth (S (length A)) (mkleaf (lid o) o1) (set_nth (length A) (mkleaf (lid l) e1) (A ++ l :: o :: B)))
                  lv (ic - 1) lc ms [])) = Ok (true, t') /\ Inv t' (without k d)).
           { destruct (balance_right e (ents o) Aeo Hene ltac:(lia)) as (e1 & o1 & B1 & B2 & B3).
             pose proof (f_equal (@length _) B2) as B4. rewrite !app_length in B4.
             rewrite B1, set_mid.
             replace (set_nth (S (length A)) (mkleaf (lid o) o1) (A ++ mkleaf (lid l) e1 :: o :: B))
               with (A ++ mkleaf (lid l) e1 :: mkleaf (lid o) o1 :: B).
             2:{ replace (S (length A)) with (length (A ++ [mkleaf (lid l) e1])) by (rewrite app_length; cbn; lia).
                 replace (A ++ mkleaf (lid l) e1 :: o :: B) with ((A ++ [mkleaf (lid l) e1]) ++ o :: B)
                   by (rewrite <- app_assoc; reflexivity).
                 rewrite set_mid, <- app_assoc. reflexivity. }
             apply Balance.
             - rewrite flat_mid. cbn [flat_map ents]. rewrite (app_assoc e1), B2. now rewrite <- app_assoc.
             - rewrite !app_length. reflexivity.
             - apply forall_mid. split; [exact FA | ]. split; [cbn [ents] | constructor; [cbn [ents] | exact FB'] ];
                 unfold mincap in *; clear - B3 B4 L Hm Ho Fo HM; lia. }
           destruct (if length A =? 0 then None else nth_error (A ++ l :: o :: B) (length A - 1)) as [o' | ] eqn:El;
             [ | exact Bal].
           destruct (Left o' eq_refl) as (A' & EA & Hl').
           assert (Hao' : asc (ents o')).
           { subst A. rewrite <- app_assoc in Hr. exact (row_leaf A' o' ([l] ++ o :: B) Hr). }
           rewrite Hlc by exact Hao'.
           destruct (Nat.leb_spec (length (ents o')) (M / 2)) as [Ho' | Ho']; [ | exact Bal].
           destruct (MergeL A' o' EA Ho' Hao') as (_ & M1 & M2 & M3). rewrite M1, Hl'. subst A.
           rewrite <- (app_assoc A' [o']). cbn [app]. rewrite set_mid.
           replace (A' ++ mkleaf (lid o') (ents o' ++ e) :: l :: o :: B)
                with ((A' ++ [mkleaf (lid o') (ents o' ++ e)]) ++ l :: o :: B) by (rewrite <- app_assoc; reflexivity).
           replace (length (A' ++ [o'])) with (length (A' ++ [mkleaf (lid o') (ents o' ++ e)]))
                by (rewrite !app_length; reflexivity).
           rewrite del_mid.
           specialize (Merge ((A' ++ [mkleaf (lid o') (ents o' ++ e)]) ++ o :: B)).
           rewrite <- (app_assoc A' [o']) in Merge. cbn [app] in Merge.
           apply Merge.
           ++ rewrite <- app_assoc. exact M2.
           ++ rewrite !app_length. cbn [length]. lia.
           ++ rewrite <- app_assoc. exact M3.
Qed.

Lemma remove_index_ok t d k : Inv t d -> In k (map fst d) ->
  exists t', remove_index M t k = Ok (true, t') /\ Inv t' (after d (RemoveIndex k)).
Proof.
  intros Hi Hk. unfold remove_index. apply (remove_gen_ok _ _ _ t d k Hi Hk).
  - intros l Hl Hkl _. split; [now apply remove_index_is | ].
    unfold items_of. rewrite map_length.
    pose proof (filter_key_length l k Hl Hkl) as E.
    assert (E2 : length (filter (fun e => fst e =? k)%Z l) + length (filter (fun e => negb (fst e =? k)%Z) l) = length l).
    { clear. induction l as [ | x l IH]; [reflexivity | ]. cbn [filter]. destruct (fst x =? k)%Z; cbn [negb length]; lia. }
    lia.
  - apply asc_uniq.
Qed.

Lemma remove_ok t d k x : Inv t d -> In (k, x) d ->
  exists t', remove M t k x = Ok (true, t') /\ Inv t' (after d (Remove k x)).
Proof.
  intros Hi Hk. unfold remove. apply (remove_gen_ok _ _ _ t d k Hi).
  - apply in_map_iff. now exists (k, x).
  - intros l Hl Hkl Hin. split; [ | reflexivity]. apply remove_is_index; [exact Hl | ]. now apply Hin.
  - reflexivity.
Qed.

End Remove.
