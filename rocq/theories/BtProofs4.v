(** * Proofs about the B+-tree: the operations *)
From Coq Require Import List ZArith Lia Arith Bool Permutation Sorted ZifyNat ZifyBool.
From Verif Require Import Bytes Outcome BtModel BtSpec BtProofs BtProofs2 BtProofs3.
Import ListNotations.
Ltac Zify.zify_post_hook ::= Z.div_mod_to_equations.

Section Ops.
Variable M : nat.
Hypothesis HM : 12 <= M.
Notation m := (mincap M).
Notation lvok := (lvok M).

Record Inv (t : bt) (d : list entry) : Prop := {
  I_asc : asc (flat (leaves t));
  I_perm : Permutation (flat (leaves t)) d;
  I_ic : icount t = Z.of_nat (length d);
  I_stuck : stuck t = [];
  I_lv : (leaves t = [] /\ levels t = []) \/ lvok (rev (levels t)) (length (leaves t));
  I_sz : Forall (fun l => 1 <= length (ents l) <= M) (leaves t);
  I_min : 2 <= length (leaves t) -> Forall (fun l => m <= length (ents l)) (leaves t) }.

Lemma sz_filled ls : Forall (fun l => 1 <= length (ents l) <= M) ls -> filled ls.
Proof.
  intros H l Hl E. rewrite Forall_forall in H. specialize (H l Hl). rewrite E in H. cbn in H. lia.
Qed.

Lemma I_row t d : Inv t d -> row (leaves t).
Proof. intro H. split; [exact (I_asc t d H) | exact (sz_filled _ (I_sz t d H))]. Qed.

Lemma inv_bt0 : Inv bt0 [].
Proof.
  constructor; cbn; auto; constructor.
Qed.

(** ** Where the descent ends *)

Lemma locate ls lv k : row ls -> lvok (rev lv) (length ls) ->
  exists A l B, ls = A ++ l :: B /\ length A = last (path ls lv 0 k) 0 /\
    (A = [] \/ ext_ltb k (lmin (ents l)) = false) /\
    (forall l2 B2, B = l2 :: B2 -> ext_ltb k (lmin (ents l2)) = true).
Proof.
  intros Hr Hl. destruct (lvok_chain M HM lv (length ls) Hl) as (C1 & C2).
  destruct (path_spec ls lv 0 k Hr C1 ltac:(lia)) as (H1 & H2 & H3).
  replace 1 with (width lv (length ls)) in H1, H3 by exact C2.
  rewrite (leftmost_end lv _ C1) in *. rewrite leftmost_0 in *.
  set (p := last (path ls lv 0 k) 0) in *.
  destruct (nth_error ls p) as [l | ] eqn:E; [ | apply nth_error_None in E; lia].
  pose proof E as E'. apply split_at in E as (A & B & EA & Hp). exists A, l, B.
  split; [exact EA | ]. split; [exact Hp | ]. split.
  - destruct H2 as [H2 | H2].
    + left. destruct A; [reflexivity | cbn in Hp; lia].
    + right. unfold leaf_min in H2. now rewrite E' in H2.
  - intros l2 B2 ->. destruct H3 as [H3 | H3].
    + rewrite EA, app_length in H3. cbn in H3. lia.
    + unfold leaf_min in H3. subst ls. rewrite <- Hp in H3.
      rewrite nth_error_app2 in H3 by lia. replace (S (length A) - length A) with 1 in H3 by lia. exact H3.
Qed.

Lemma locate_fin ls lv k : row ls -> lvok (rev lv) (length ls) ->
  exists A l B, ls = A ++ l :: B /\ length A = last (path ls lv 0 (Fin k)) 0 /\
    (forall y, In y (flat A) -> (fst y < k)%Z) /\ (forall y, In y (flat B) -> (k < fst y)%Z).
Proof.
  intros Hr Hl. destruct (locate ls lv (Fin k) Hr Hl) as (A & l & B & E & Hp & H1 & H2).
  exists A, l, B. split; [exact E | ]. split; [exact Hp | ]. pose proof Hr as (Ha & Hf). split.
  - intros y Hy. destruct H1 as [ -> | H1]; [easy | ].
    destruct (ents l) as [ | e r] eqn:El.
    { exfalso. apply (Hf l); [rewrite E; apply in_or_app; right; now left | exact El]. }
    cbn in H1. pose proof (row_left ls A l B e r Hr E El y Hy). lia.
  - intros y Hy. destruct B as [ | l2 B2]; [easy | ]. specialize (H2 l2 B2 eq_refl).
    destruct (ents l2) as [ | e r] eqn:El.
    { exfalso. apply (Hf l2); [rewrite E; apply in_or_app; right; right; now left | exact El]. }
    cbn in H2. rewrite E, flat_mid in Ha. apply asc_app in Ha as (_ & Ha & _).
    apply asc_app in Ha as (_ & Ha & _).
    cbn [flat_map] in Ha, Hy. rewrite El in Ha, Hy. cbn [app] in Ha, Hy.
    pose proof (asc_head e _ y Ha Hy). lia.
Qed.

(** ** The stack of the descent *)

Lemma counts_ne ls lv k : lv <> [] -> counts lv (path ls lv 0 k) <> [].
Proof. destruct lv; [congruence | ]. discriminate. Qed.

Lemma stack_size ls lv k clear full u r : row ls -> lvok (rev lv) (length ls) -> lv <> [] ->
  (forall c, bounds M c -> clear c = false -> full c = true) -> full u = true ->
  snd (walk clear full (counts lv (path ls lv 0 k)) u r 0) =
  R clear (bcounts (rev lv) (tl (rev (path ls lv 0 k)))).
Proof.
  intros Hr Hl Hne Hcf Hu. destruct (path_posn M HM ls lv k Hr Hl) as (P1 & P2).
  rewrite P2. apply walk_spec; [now apply counts_ne | | exact Hu].
  intros c Hc. apply Hcf. apply (posn_bounds M HM (rev lv) _ (length ls) _ Hl P1).
  rewrite P2, rev_involutive. rewrite <- in_rev. exact Hc.
Qed.

(** ** Append *)

Lemma perm_mid (A e B x l : list entry) y : Permutation e (y :: l) -> Permutation (A ++ e ++ B) (y :: A ++ l ++ B).
Proof.
  intro H. rewrite H. cbn [app]. symmetry. apply Permutation_middle.
Qed.

Lemma notin_mid (k : Z) (A l B : list entry) : ~ In k (map fst (A ++ l ++ B)) -> ~ In k (map fst l).
Proof. rewrite !map_app, !in_app_iff. tauto. Qed.

(** a leaf of the row is ascending *)
Lemma row_leaf A l B : row (A ++ l :: B) -> asc (ents l).
Proof. intros (H & _). rewrite flat_mid in H. apply asc_app in H as (_ & H & _). now apply asc_app in H as (H & _ & _). Qed.

Lemma forall_mid {A} (P : A -> Prop) a x b : Forall P (a ++ x :: b) <-> Forall P a /\ P x /\ Forall P b.
Proof.
  rewrite Forall_app. split; [intros (H1 & H2); inversion H2; auto | intros (H1 & H2 & H3); auto].
Qed.

Lemma icount_up t d (Hi : Inv t d) (e : entry) : (icount t + 1)%Z = Z.of_nat (length (e :: d)).
Proof. rewrite (I_ic t d Hi). cbn [length]. lia. Qed.

Lemma split_parts l : asc l -> length l = M ->
  leaf_split l = (firstn (M - M / 2) l, skipn (M - M / 2) l).
Proof.
  intros H E. unfold leaf_split. rewrite asc_uniq by exact H. rewrite E. now apply asc_cut.
Qed.

(** appending to one of the two halves of a split leaf *)
Lemma split_append A l B k x (right : bool) :
  asc (A ++ l ++ B) -> ~ In k (map fst l) -> length l = M ->
  (forall y, In y A -> (fst y < k)%Z) -> (forall y, In y B -> (k < fst y)%Z) ->
  let lo := firstn (M - M / 2) l in let hi := skipn (M - M / 2) l in
  right = negb (ext_ltb (Fin k) (lmin hi)) ->
  exists e, leaf_append k x (if right then hi else lo) = (true, e) /\
    let lo' := if right then lo else e in let hi' := if right then e else hi in
    asc (A ++ lo' ++ hi' ++ B) /\ Permutation (A ++ lo' ++ hi' ++ B) ((k, x) :: A ++ l ++ B) /\
    m <= length lo' <= M /\ m <= length hi' <= M.
Proof.
  intros Ha Hn Hl HA HB lo hi Hright.
  assert (El : l = lo ++ hi) by (subst lo hi; now rewrite firstn_skipn).
  assert (L1 : length lo = M - M / 2) by (subst lo; rewrite firstn_length; lia).
  assert (L2 : length hi = M / 2) by (subst hi; rewrite skipn_length; lia).
  clearbody lo hi. subst l. clear Hl.
  rewrite map_app in Hn.
  assert (N1 : ~ In k (map fst lo)) by (intro; apply Hn, in_or_app; now left).
  assert (N2 : ~ In k (map fst hi)) by (intro; apply Hn, in_or_app; now right).
  rewrite <- !app_assoc in *.
  destruct hi as [ | h hi]; [cbn [length] in L2; lia | ]. cbn [lmin ext_ltb] in Hright.
  assert (Hk : fst h <> k). { intro. apply N2. now left. }
  destruct right.
  - eexists. split; [now apply append_new | ]. cbn zeta iota.
    set (e := filter _ _ ++ _).
    assert (P : Permutation e ((k, x) :: h :: hi)) by apply append_perm.
    split; [ | split].
    + rewrite app_assoc. rewrite app_assoc in Ha. apply (asc_mid (A ++ lo) (h :: hi) e B k); auto.
      * apply append_asc; [ | exact N2]. apply asc_app in Ha as (_ & Ha & _). now apply asc_app in Ha as (Ha & _).
      * intros y Hy. exact (append_in _ _ _ _ Hy).
      * intros y Hy. apply in_app_or in Hy as [Hy | Hy]; [now apply HA | ].
        apply asc_app in Ha as (_ & _ & Ha). specialize (Ha y h).
        assert (fst y < fst h)%Z. { apply Ha; [apply in_or_app; now right | now left]. }
        lia.
    + rewrite (app_assoc A lo (e ++ B)). rewrite (perm_mid (A ++ lo) e B [] (h :: hi) (k, x) P).
      now rewrite <- !app_assoc.
    + assert (length e = S (M / 2)) by (subst e; rewrite append_length; exact (f_equal S L2)).
      unfold mincap. lia.
  - eexists. split; [now apply append_new | ]. cbn zeta iota.
    set (e := filter _ _ ++ _).
    assert (P : Permutation e ((k, x) :: lo)) by apply append_perm.
    split; [ | split].
    + apply (asc_mid A lo e ((h :: hi) ++ B) k); auto.
      * apply append_asc; [ | exact N1]. apply asc_app in Ha as (_ & Ha & _). now apply asc_app in Ha as (Ha & _).
      * intros y Hy. exact (append_in _ _ _ _ Hy).
      * intros y Hy. apply in_app_or in Hy as [Hy | Hy]; [ | now apply HB].
        apply asc_app in Ha as (_ & Ha & _). apply asc_app in Ha as (_ & Ha & _).
        apply asc_app in Ha as (Ha & _). pose proof (asc_head h hi y Ha Hy). lia.
    + now rewrite (perm_mid A e ((h :: hi) ++ B) [] lo (k, x) P).
    + assert (length e = S (M - M / 2)) by (subst e; rewrite append_length; exact (f_equal S L1)).
      cbn [length] in L2. unfold mincap. cbn [length]. lia.
Qed.

Lemma append_ok t d k x : Inv t d -> ~ In k (map fst d) ->
  exists t', append M t k x = Ok (true, t') /\ Inv t' ((k, x) :: d).
Proof.
  intros Hi Hk. pose proof (I_row t d Hi) as Hr.
  assert (Hk' : ~ In k (map fst (flat (leaves t)))).
  { intro H. apply Hk. rewrite <- (I_perm t d Hi). exact H. }
  destruct Hi as [Iasc Iperm Iic Istuck Ilv Isz Imin].
  destruct t as [ls lv ic lc ms st]. cbn [leaves levels icount stuck] in *. subst st.
  unfold append. cbn [leaves levels icount lcount missed stuck].
  destruct ls as [ | l0 ls].
  - destruct Ilv as [(_ & ->) | H]; [ | apply (lvok_pos M HM) in H; cbn in H; lia].
    destruct (unique_id _) as [i ms']. eexists. split; [reflexivity | ]. cbn in Iperm.
    apply Permutation_nil in Iperm. subst d.
    cbn [length] in Iic.
    constructor; cbn [leaves levels icount stuck flat_map ents app length rev].
    + apply asc_one.
    + reflexivity.
    + lia.
    + reflexivity.
    + right. reflexivity.
    + constructor; [cbn [ents length]; lia | constructor].
    + lia.
  - destruct Ilv as [(H & _) | Ilv]; [discriminate | ].
    destruct ls as [ | l1 ls].
    + (* the root is a leaf *)
      pose proof (lvok_one M HM _ Ilv) as E. apply (f_equal (@rev _)) in E. rewrite rev_involutive in E. cbn in E. subst lv.
      cbn [flat_map] in *. rewrite app_nil_r in *.
      inversion Isz as [ | ? ? Hl _]; subst.
      rewrite asc_uniq by exact Iasc.
      destruct (Nat.ltb_spec (length (ents l0)) M) as [Hu | Hu].
      * rewrite append_new by exact Hk'. eexists. split; [reflexivity | ].
        constructor; cbn [leaves levels icount stuck length rev app]; auto; try lia.
        -- cbn. rewrite app_nil_r. now apply append_asc.
        -- cbn. rewrite app_nil_r. rewrite append_perm. now constructor.
        -- constructor; [ | constructor]. cbn [ents]. rewrite append_length. lia.
      * destruct (unique_id _) as [i ms'].
        rewrite split_parts by (auto; lia).
        set (hi := skipn (M - M / 2) (ents l0)). set (lo := firstn (M - M / 2) (ents l0)).
        assert (Hh : ext_ltb (lmin hi) (Fin k) = negb (ext_ltb (Fin k) (lmin hi))).
        { assert (hi <> []). { intro E. apply (f_equal (@length _)) in E. subst hi. rewrite skipn_length in E. cbn [length] in E. lia. }
          destruct hi as [ | h hi'] eqn:Eh; [congruence | ]. cbn.
          assert (fst h <> k). { intro E. apply Hk'. rewrite <- (firstn_skipn (M - M / 2) (ents l0)).
            subst hi. rewrite Eh, map_app, in_app_iff. right. now left. }
          lia. }
        destruct (split_append [] (ents l0) [] k x (ext_ltb (lmin hi) (Fin k))) as (e & E1 & E2 & E3 & E4 & E5);
          cbn [app]; rewrite ?app_nil_r; auto; try easy; [lia | ].
        rewrite !app_nil_r in *. cbn [app] in *. fold lo hi in E1, E2, E3, E4, E5 |- *. rewrite E1.
        eexists. split; [reflexivity | ].
        constructor; cbn [leaves levels icount stuck length rev app flat_map ents]; rewrite ?app_nil_r; auto.
        -- rewrite E3. now constructor.
        -- cbn. lia.
        -- right. repeat split; auto. exists 2. split; [reflexivity | lia].
        -- pose proof (m3 M HM). repeat constructor; cbn [ents]; lia.
        -- intros _. repeat constructor; cbn [ents]; lia.
    + (* inner nodes *)
      set (ls' := l0 :: l1 :: ls) in *.
      assert (Hlv : lv <> []). { intros ->. cbn in Ilv. lia. }
      assert (H2 : 2 <= length ls') by (subst ls'; cbn; lia). specialize (Imin H2).
      destruct (locate_fin ls' lv k Hr Ilv) as (A & l & B & E & Hp & HA & HB).
      clearbody ls'. subst ls'. rewrite <- Hp, nth_error_mid.
      unfold is_stuck. cbn [stuck existsb].
      pose proof (row_leaf _ _ _ Hr) as Hal. rewrite flat_mid in Iasc, Iperm, Hk'.
      pose proof (notin_mid _ _ _ _ Hk') as Hkl.
      apply forall_mid in Isz as (SA & Sl & SB). apply forall_mid in Imin as (MA & Ml & MB).
      rewrite asc_uniq by exact Hal.
      pose proof (stack_size (A ++ l :: B) lv (Fin k) (fun c => c <? M) (fun c => c =? M) (length (ents l))
        (hd 0 (counts lv (path (A ++ l :: B) lv 0 (Fin k))) =? M) Hr Ilv Hlv) as Hst.
      destruct (walk _ _ _ _ _ _) as [record n].
      destruct (Nat.ltb_spec (length (ents l)) M) as [Hu | Hu].
      * rewrite append_new by exact Hkl. rewrite set_mid. eexists. split; [reflexivity | ].
        set (e := filter _ _ ++ _).
        assert (Le : length e = S (length (ents l))) by apply append_length.
        constructor; cbn [leaves levels icount stuck].
        -- rewrite flat_mid. cbn [ents]. apply (asc_mid _ (ents l) e _ k); auto.
           ++ now apply append_asc.
           ++ intros y Hy. exact (append_in _ _ _ _ Hy).
        -- rewrite flat_mid. cbn [ents].
           rewrite (perm_mid _ e _ [] (ents l) (k, x)) by apply append_perm. now constructor.
        -- cbn [length]. lia.
        -- reflexivity.
        -- right. rewrite app_length in *. exact Ilv.
        -- apply forall_mid. split; [exact SA | ]. split; [cbn [ents]; lia | exact SB].
        -- intros _. apply forall_mid. split; [exact MA | ]. split; [cbn [ents]; lia | exact MB].
      * destruct (unique_id _) as [i ms'].
        rewrite split_parts by (auto; lia).
        set (hi := skipn (M - M / 2) (ents l)). set (lo := firstn (M - M / 2) (ents l)).
        destruct (split_append (flat A) (ents l) (flat B) k x (negb (ext_ltb (Fin k) (lmin hi))))
          as (e & E1 & E2 & E3 & E4 & E5); auto; [lia | ].
        fold lo hi in E1, E2, E3, E4, E5. rewrite E1. cbn zeta in *.
        set (right := negb (ext_ltb (Fin k) (lmin hi))) in *.
        set (lo' := if right then lo else e) in *. set (hi' := if right then e else hi) in *.
        clearbody lo' hi'. rewrite set_mid, ins_mid.
        set (ls' := A ++ mkleaf (lid l) lo' :: mkleaf i hi' :: B).
        assert (Fl : flat ls' = flat A ++ lo' ++ hi' ++ flat B).
        { subst ls'. rewrite flat_mid. reflexivity. }
        pose proof (m3 M HM) as Hm3.
        assert (Sz : Forall (fun l => 1 <= length (ents l) <= M) ls').
        { apply forall_mid. split; [exact SA | ]. split; [cbn [ents]; lia | ]. constructor; [cbn [ents]; lia | exact SB]. }
        assert (Hr' : row ls'). { split; [now rewrite Fl | now apply sz_filled]. }
        assert (Ll : length ls' = S (length (A ++ l :: B))) by (subst ls'; rewrite !app_length; cbn; lia).
        destruct (path_posn M HM (A ++ l :: B) lv (Fin k) Hr Ilv) as (P1 & P2).
        cbn [snd] in Hst. rewrite Hst; [ | unfold bounds; lia | lia].
        destruct (push_up_ok M HM ls' Hr' (rev lv) [] (tl (rev (path (A ++ l :: B) lv 0 (Fin k)))) (length (A ++ l :: B))
                   (length A)) as (lv' & Ep & Hlv').
        { cbn. lia. } { exact Ilv. } { intro E0. apply Hlv. now apply (f_equal (@rev _)) in E0; rewrite rev_involutive in E0. }
        { rewrite Hp. exact P1. } { rewrite app_length. cbn. lia. }
        rewrite Ep. cbn [rbind]. eexists. split; [reflexivity | ].
        constructor; cbn [leaves levels icount stuck].
        -- now rewrite Fl.
        -- rewrite Fl, E3. now constructor.
        -- cbn [length]. lia.
        -- reflexivity.
        -- right. exact Hlv'.
        -- exact Sz.
        -- intros _. apply forall_mid. split; [exact MA | ]. split; [cbn [ents]; lia | ]. constructor; [cbn [ents]; lia | exact MB].
Qed.
End Ops.
