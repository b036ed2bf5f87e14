(** * Proofs about the B+-tree: the levels of inner nodes *)
From Coq Require Import List ZArith Lia Arith Bool Permutation Sorted ZifyNat ZifyBool.
From Verif Require Import Bytes Outcome BtModel BtSpec BtProofs.
Import ListNotations.
Ltac Zify.zify_post_hook ::= Z.div_mod_to_equations.

(** ** Sums *)

Lemma sum_app a b : list_sum (a ++ b) = list_sum a + list_sum b.
Proof. apply list_sum_app. Qed.

Lemma sum_cons x l : list_sum (x :: l) = x + list_sum l.
Proof. reflexivity. Qed.

Lemma first_child_mid (a : list nat) c b : first_child (a ++ c :: b) (length a) = list_sum a.
Proof. unfold first_child. now rewrite firstn_mid. Qed.

Lemma nchild_mid (a : list nat) c b : nchild (a ++ c :: b) (length a) = c.
Proof. unfold nchild. rewrite app_nth2, Nat.sub_diag by lia. reflexivity. Qed.

Lemma level_split (g : list nat) j : j < length g -> exists a c b, g = a ++ c :: b /\ length a = j.
Proof.
  intro H. destruct (nth_error g j) as [c | ] eqn:E; [ | apply nth_error_None in E; lia].
  apply split_at in E as (a & b & -> & <-). now exists a, c, b.
Qed.

Lemma first_child_S g j : j < length g -> first_child g (S j) = first_child g j + nchild g j.
Proof.
  intro H. destruct (level_split g j H) as (a & c & b & -> & <-).
  rewrite first_child_mid, nchild_mid. unfold first_child.
  replace (a ++ c :: b) with ((a ++ [c]) ++ b) by (rewrite <- app_assoc; reflexivity).
  replace (S (length a)) with (length (a ++ [c])) by (rewrite app_length; cbn; lia).
  rewrite firstn_mid, sum_app. cbn. lia.
Qed.

Lemma first_child_all g : first_child g (length g) = list_sum g.
Proof. unfold first_child. now rewrite firstn_all. Qed.

(** ** Levels from the root downwards *)

Definition width (lv : list (list nat)) (N : nat) : nat := match lv with [] => N | g :: _ => length g end.

Fixpoint chain (lv : list (list nat)) (N : nat) : Prop :=
  match lv with
  | [] => True
  | g :: lv' => Forall (fun c => 1 <= c) g /\ list_sum g = width lv' N /\ chain lv' N
  end.

Lemma first_child_mono g j j' : Forall (fun c => 1 <= c) g -> j < j' <= length g ->
  first_child g j < first_child g j'.
Proof.
  intros Hg [H1 H2]. induction H1 as [ | j' H1 IH].
  - rewrite first_child_S by lia. rewrite Forall_forall in Hg.
    assert (1 <= nchild g j) by (apply Hg, nth_In; lia). lia.
  - rewrite first_child_S by lia. specialize (IH ltac:(lia)). lia.
Qed.

Lemma first_child_le g j : j <= length g -> first_child g j <= list_sum g.
Proof.
  intro H. rewrite <- (firstn_skipn j g) at 2. rewrite sum_app. unfold first_child. lia.
Qed.

Lemma leftmost_mono lv N j j' : chain lv N -> j < j' <= width lv N -> leftmost lv j < leftmost lv j'.
Proof.
  revert j j'. induction lv as [ | g lv IH]; intros j j' Hc Hj; cbn [leftmost width] in *; [lia | ].
  destruct Hc as (H1 & H2 & H3). apply IH; [exact H3 | ].
  split; [now apply first_child_mono | ]. rewrite <- H2. apply first_child_le. lia.
Qed.

Lemma leftmost_end lv N : chain lv N -> leftmost lv (width lv N) = N.
Proof.
  induction lv as [ | g lv IH]; intro Hc; cbn [leftmost width]; [reflexivity | ].
  destruct Hc as (H1 & H2 & H3). now rewrite first_child_all, H2, IH.
Qed.

Lemma leftmost_0 lv : leftmost lv 0 = 0.
Proof. induction lv as [ | g lv IH]; cbn; [reflexivity | exact IH]. Qed.

Lemma leftmost_lt lv N j : chain lv N -> j < width lv N -> leftmost lv j < N.
Proof.
  intros Hc Hj. pose proof (leftmost_mono lv N j (width lv N) Hc ltac:(lia)) as H.
  now rewrite (leftmost_end lv N Hc) in H.
Qed.

(** ** Minima of the nodes of a level *)

Definition nmn (ls : list leaf) (lv : list (list nat)) (j : nat) : Z := mn ls (leftmost lv j).

Lemma node_min_fin ls lv j : row ls -> chain lv (length ls) -> j < width lv (length ls) ->
  node_min ls lv j = Fin (nmn ls lv j).
Proof.
  intros (_ & Hf) Hc Hj. unfold node_min, nmn. apply leaf_min_fin; [exact Hf | ]. now apply leftmost_lt.
Qed.

Lemma nmn_mono ls lv i j : row ls -> chain lv (length ls) -> i < j < width lv (length ls) ->
  (nmn ls lv i < nmn ls lv j)%Z.
Proof.
  intros Hr Hc Hij. unfold nmn. apply mn_mono; [exact Hr | ].
  split; [apply (leftmost_mono lv (length ls)); [exact Hc | lia] | apply leftmost_lt; [exact Hc | lia] ].
Qed.

Lemma mins_up ls lv a n : row ls -> chain lv (length ls) -> a + n <= width lv (length ls) ->
  map (node_min ls lv) (seq a n) = map Fin (map (nmn ls lv) (seq a n)) /\
  StronglySorted Z.lt (map (nmn ls lv) (seq a n)).
Proof.
  intros Hr Hc. revert a. induction n as [ | n IH]; intros a Ha; cbn [seq map]; [split; constructor | ].
  destruct (IH (S a) ltac:(lia)) as (H1 & H2). split.
  - now rewrite node_min_fin, H1 by (auto; lia).
  - constructor; [exact H2 | ]. apply Forall_forall. intros z Hz. apply in_map_iff in Hz as (i & <- & Hi).
    apply in_seq in Hi. apply nmn_mono; [exact Hr | exact Hc | lia].
Qed.

(** ** Descent *)

Lemma path_cons ls lv j k : exists r, path ls lv j k = j :: r.
Proof. destruct lv; cbn; eauto. Qed.

Lemma path_length ls lv j k : length (path ls lv j k) = S (length lv).
Proof. revert j. induction lv as [ | g lv IH]; intro j; cbn [path length]; [reflexivity | ]. now rewrite IH. Qed.

Lemma last_cons {A} (x : A) l d : l <> [] -> last (x :: l) d = last l d.
Proof. now destruct l. Qed.

Lemma path_ne ls lv j k : path ls lv j k <> [].
Proof. destruct (path_cons ls lv j k) as (r & ->). discriminate. Qed.

(** the child chosen by a node *)
Definition child (ls : list leaf) (g : list nat) (lv : list (list nat)) (j : nat) (k : ext) : nat :=
  first_child g j + find_node (map (node_min ls lv) (seq (first_child g j) (nchild g j))) k.

Lemma path_S ls g lv j k : path ls (g :: lv) j k = j :: path ls lv (child ls g lv j k) k.
Proof. reflexivity. Qed.

Lemma child_spec ls g lv j k : row ls -> chain (g :: lv) (length ls) -> j < length g ->
  let c := child ls g lv j k in
  first_child g j <= c < first_child g (S j) /\
  (c = first_child g j \/ ext_ltb k (node_min ls lv c) = false) /\
  (S c = first_child g (S j) \/ ext_ltb k (node_min ls lv (S c)) = true).
Proof.
  intros Hr (H1 & H2 & H3) Hj. cbn zeta. unfold child.
  set (a := first_child g j). set (n := nchild g j).
  assert (Hn : 1 <= n). { rewrite Forall_forall in H1. apply H1, nth_In. exact Hj. }
  assert (Ha : a + n <= width lv (length ls)).
  { subst a n. rewrite <- first_child_S by exact Hj. rewrite <- H2. now apply first_child_le. }
  destruct (mins_up ls lv a n Hr H3 Ha) as (E & Hs).
  assert (Hne : map (node_min ls lv) (seq a n) <> []).
  { destruct n; [lia | ]. discriminate. }
  assert (Hl : length (map (node_min ls lv) (seq a n)) = n) by now rewrite map_length, seq_length.
  destruct (find_node_spec (map (node_min ls lv) (seq a n)) k (ex_intro _ _ (conj E Hs)) Hne)
    as (G1 & G2 & G3).
  set (i := find_node (map (node_min ls lv) (seq a n)) k) in *. rewrite Hl in *.
  rewrite first_child_S by exact Hj. fold a n.
  assert (Hnth : forall i, i < n -> nth i (map (node_min ls lv) (seq a n)) PosInf = node_min ls lv (a + i)).
  { intros i' Hi. rewrite (nth_indep _ PosInf (node_min ls lv 0)) by now rewrite Hl.
    rewrite map_nth, seq_nth by exact Hi. reflexivity. }
  split; [lia | ]. split.
  - destruct G2 as [ -> | G2]; [left; lia | right]. rewrite Hnth in G2 by exact G1. exact G2.
  - destruct G3 as [G3 | G3]; [left; lia | ].
    destruct (Nat.eq_dec (S i) n) as [E1 | E1]; [left; lia | right].
    rewrite Hnth in G3 by lia. replace (S (a + i)) with (a + S i) by lia. exact G3.
Qed.

(** the leaf found below node [j]: the last one whose minimum is not above the index, or else the first *)
Lemma path_spec ls lv j k : row ls -> chain lv (length ls) -> j < width lv (length ls) ->
  let p := last (path ls lv j k) 0 in
  leftmost lv j <= p < leftmost lv (S j) /\
  (p = leftmost lv j \/ ext_ltb k (leaf_min ls p) = false) /\
  (S p = leftmost lv (S j) \/ ext_ltb k (leaf_min ls (S p)) = true).
Proof.
  intro Hr. revert j. induction lv as [ | g lv IH]; intros j Hc Hj; cbn zeta.
  - cbn. split; [lia | ]. split; left; reflexivity.
  - rewrite path_S, last_cons by apply path_ne. cbn [leftmost width] in *.
    destruct (child_spec ls g lv j k Hr Hc Hj) as (H1 & H2 & H3).
    set (c := child ls g lv j k) in *. pose proof Hc as (C1 & C2 & C3).
    assert (Hw : first_child g (S j) <= width lv (length ls)).
    { rewrite <- C2. apply first_child_le. lia. }
    destruct (IH c C3 ltac:(lia)) as (G1 & G2 & G3).
    assert (M1 : leftmost lv (first_child g j) <= leftmost lv c).
    { destruct (Nat.eq_dec (first_child g j) c) as [ <- | ]; [lia | ].
      apply Nat.lt_le_incl, (leftmost_mono lv (length ls)); [exact C3 | lia]. }
    assert (M2 : leftmost lv (S c) <= leftmost lv (first_child g (S j))).
    { destruct (Nat.eq_dec (S c) (first_child g (S j))) as [ <- | ]; [lia | ].
      apply Nat.lt_le_incl, (leftmost_mono lv (length ls)); [exact C3 | lia]. }
    split; [lia | ]. split.
    + destruct G2 as [G2 | G2]; [ | now right]. destruct H2 as [H2 | H2].
      * left. rewrite G2, H2. reflexivity.
      * right. rewrite G2. exact H2.
    + destruct G3 as [G3 | G3]; [ | now right]. destruct H3 as [H3 | H3].
      * left. rewrite G3, H3. reflexivity.
      * right. rewrite G3. exact H3.
Qed.

(** ** Levels from the leaves upwards, with the bounds on the nodes *)

Section Bounds.
Variable M : nat.
Hypothesis HM : 12 <= M.

Notation m := (mincap M).

Definition bounds (c : nat) : Prop := m <= c <= M.

Lemma m3 : 3 <= m.
Proof. unfold mincap. lia. Qed.

Lemma m_M : m <= M / 2.
Proof. unfold mincap. lia. Qed.

Fixpoint lvok (rest : list (list nat)) (w : nat) : Prop :=
  match rest with
  | [] => w = 1
  | g :: rest' =>
      list_sum g = w /\ lvok rest' (length g) /\
      match rest' with [] => exists n, g = [n] /\ 2 <= n <= M | _ => Forall bounds g end
  end.

Fixpoint pre (bl : list (list nat)) (N w : nat) : Prop :=
  match bl with
  | [] => w = N
  | g :: bl' => list_sum g = N /\ Forall bounds g /\ pre bl' (length g) w
  end.

Lemma pre_snoc bl g N w : pre (bl ++ [g]) N w <-> exists w', pre bl N w' /\ list_sum g = w' /\ Forall bounds g /\ w = length g.
Proof.
  revert N. induction bl as [ | g0 bl IH]; intro N; cbn [pre app].
  - split; [intros (H1 & H2 & H3); exists N; auto | ]. intros (w' & -> & H2 & H3 & H4). auto.
  - rewrite IH. split.
    + intros (H1 & H2 & w' & H3). exists w'. tauto.
    + intros (w' & (H1 & H2 & H3) & H4). repeat split; auto. now exists w'.
Qed.

Lemma lvok_app bl g rest N : lvok (bl ++ g :: rest) N <-> exists w, pre bl N w /\ lvok (g :: rest) w.
Proof.
  revert N. induction bl as [ | g0 bl IH]; intro N.
  - cbn [app pre]. split; [intro H; now exists N | ]. intros (w & -> & H). exact H.
  - cbn [app]. split.
    + intros (H1 & H2 & H3). apply IH in H2 as (w & H2 & H4). exists w. split; [ | exact H4].
      cbn [pre]. repeat split; auto. destruct (bl ++ g :: rest) eqn:E; [now destruct bl | exact H3].
    + intros (w & (H1 & H2 & H3) & H4). cbn [lvok]. split; [exact H1 | ]. split.
      * apply IH. now exists w.
      * destruct (bl ++ g :: rest) eqn:E; [now destruct bl | exact H2].
Qed.

Lemma bounds_pos g : Forall bounds g -> Forall (fun c => 1 <= c) g.
Proof. apply Forall_impl. intros c H. unfold bounds in H. pose proof m3. lia. Qed.

Lemma pre_chain lv N w : pre (rev lv) N w -> chain lv N /\ width lv N = w.
Proof.
  revert w. induction lv as [ | g lv IH]; intros w H; cbn [rev chain width] in *.
  - cbn in H. auto.
  - apply pre_snoc in H as (w' & H1 & H2 & H3 & ->). apply IH in H1 as (H4 & H5).
    repeat split; auto; [now apply bounds_pos | congruence].
Qed.

Lemma lvok_pos rest w : lvok rest w -> 1 <= w.
Proof.
  revert w. induction rest as [ | g rest IH]; intros w H; cbn [lvok] in H; [lia | ].
  destruct H as (H1 & H2 & H3). apply IH in H2.
  destruct rest as [ | g' rest].
  - destruct H3 as (n & -> & Hn). cbn in H1. lia.
  - destruct g as [ | c g]; cbn [length] in H2; [lia | ]. inversion H3 as [ | ? ? Hb]; subst.
    rewrite sum_cons. unfold bounds in Hb. pose proof m3. lia.
Qed.

Lemma lvok_two g rest w : lvok (g :: rest) w -> 2 <= w.
Proof.
  cbn [lvok]. intros (H1 & H2 & H3). apply lvok_pos in H2.
  destruct rest as [ | g' rest].
  - destruct H3 as (n & -> & Hn). cbn in H1. lia.
  - destruct g as [ | c g]; cbn [length] in H2; [lia | ]. inversion H3 as [ | ? ? Hb]; subst.
    rewrite sum_cons. unfold bounds in Hb. pose proof m3. lia.
Qed.

Lemma lvok_one rest : lvok rest 1 -> rest = [].
Proof. destruct rest as [ | g rest]; [reflexivity | ]. intro H. apply lvok_two in H. lia. Qed.

Lemma lvok_chain lv N : lvok (rev lv) N -> chain lv N /\ width lv N = 1.
Proof.
  destruct lv as [ | g lv]; cbn [rev]; [cbn; auto | ].
  intro H. change (rev lv ++ [g]) with (rev lv ++ g :: []) in H. apply lvok_app in H as (w & H1 & H2).
  apply pre_chain in H1 as (H3 & H4). cbn [lvok] in H2. destruct H2 as (H5 & H6 & n & -> & Hn).
  cbn [chain width length]. repeat split; auto; [ | congruence]. constructor; [lia | constructor].
Qed.

Lemma pre_lvok bl N : pre bl N 1 -> lvok bl N.
Proof.
  destruct bl as [ | g bl] using rev_ind; [cbn; auto | ]. intro H.
  change (bl ++ [g]) with (bl ++ g :: []). apply lvok_app.
  apply pre_snoc in H as (w' & H1 & H2 & H3 & H4). exists w'. split; [exact H1 | ].
  destruct g as [ | n [ | ]]; cbn [length] in H4; try lia. cbn [lvok length]. repeat split; auto.
  exists n. split; [reflexivity | ]. inversion H3 as [ | ? ? Hb]; subst. unfold bounds in Hb. pose proof m3. lia.
Qed.

(** the nodes of a path, from the parent of the leaf upwards *)
Fixpoint posn (rest : list (list nat)) (rp : list nat) (c : nat) : Prop :=
  match rest, rp with
  | [], [] => True
  | g :: rest', j :: rp' =>
      j < length g /\ first_child g j <= c < first_child g j + nchild g j /\ posn rest' rp' j
  | _, _ => False
  end.

Fixpoint bcounts (rest : list (list nat)) (rp : list nat) : list nat :=
  match rest, rp with
  | g :: rest', j :: rp' => nchild g j :: bcounts rest' rp'
  | _, _ => []
  end.

Lemma tl_app {A} (a b : list A) : a <> [] -> tl (a ++ b) = tl a ++ b.
Proof. now destruct a. Qed.

Lemma path_posn_gen ls lv j k rest rp : row ls -> chain lv (length ls) -> j < width lv (length ls) ->
  posn rest rp j ->
  posn (rev lv ++ rest) (tl (rev (path ls lv j k)) ++ rp) (last (path ls lv j k) 0) /\
  bcounts (rev lv ++ rest) (tl (rev (path ls lv j k)) ++ rp) =
    rev (counts lv (path ls lv j k)) ++ bcounts rest rp.
Proof.
  intro Hr. revert j rest rp. induction lv as [ | g lv IH]; intros j rest rp Hc Hj Hp.
  - cbn. auto.
  - rewrite path_S, last_cons by apply path_ne. cbn [rev counts].
    destruct (child_spec ls g lv j k Hr Hc Hj) as (H1 & _).
    set (c := child ls g lv j k) in *. pose proof Hc as (C1 & C2 & C3).
    cbn [width] in Hj.
    assert (Hw : first_child g (S j) <= width lv (length ls)).
    { rewrite <- C2. apply first_child_le. lia. }
    rewrite tl_app by (intro E; apply (f_equal (@length _)) in E; rewrite rev_length, path_length in E; discriminate).
    rewrite <- !app_assoc. cbn [app].
    rewrite first_child_S in H1 by exact Hj.
    rewrite first_child_S in Hw by exact Hj.
    destruct (IH c (g :: rest) (j :: rp) C3 ltac:(lia)) as (G1 & G2).
    { cbn [posn]. repeat split; auto; lia. }
    split; [exact G1 | ]. rewrite G2. reflexivity.
Qed.

Lemma path_posn ls lv k : row ls -> lvok (rev lv) (length ls) ->
  posn (rev lv) (tl (rev (path ls lv 0 k))) (last (path ls lv 0 k) 0) /\
  bcounts (rev lv) (tl (rev (path ls lv 0 k))) = rev (counts lv (path ls lv 0 k)).
Proof.
  intros Hr H. apply lvok_chain in H as (H1 & H2).
  destruct (path_posn_gen ls lv 0 k [] [] Hr H1 ltac:(lia) Logic.I) as (G1 & G2).
  rewrite !app_nil_r in *. auto.
Qed.

(** ** The stack *)

Fixpoint R (clear : nat -> bool) (cs : list nat) : nat :=
  match cs with [] => 0 | c :: up => S (if clear c then 0 else R clear up) end.

(** [walk] with the child of the last node as a list element *)
Lemma walk_gen clear full cs1 cs2 leafc r n :
  (forall c, In c cs2 -> clear c = false -> full c = true) ->
  full leafc = true -> cs2 <> [] ->
  (cs1 = [] -> n = 0) ->
  (match cs1, cs2 with c1 :: _, c2 :: _ => full c2 = true -> n = R clear cs1 | _, _ => True end) ->
  snd (walk clear full cs2 leafc r n) = R clear (rev cs2 ++ cs1).
Proof.
  intros Hcf Hl. revert cs1 r n. induction cs2 as [ | c cs2 IH]; intros cs1 r n Hne H1 H2; [congruence | ].
  cbn [walk].
  assert (E : (if clear c then 0 else n) = if clear c then 0 else R clear cs1).
  { destruct (clear c) eqn:Ec; [reflexivity | ].
    destruct cs1 as [ | c1 cs1]; [now rewrite H1 | ]. apply H2. apply Hcf; [now left | exact Ec]. }
  destruct (if clear c then (false, 0) else (r, n)) as [r1 n1] eqn:E1.
  assert (En : n1 = if clear c then 0 else R clear cs1).
  { rewrite <- E. destruct (clear c); congruence. }
  destruct cs2 as [ | c' cs2].
  - cbn [walk rev app R snd]. rewrite Hl, orb_true_r. now rewrite En.
  - replace (rev (c :: c' :: cs2) ++ cs1) with (rev (c' :: cs2) ++ (c :: cs1))
      by (cbn [rev]; rewrite <- !app_assoc; reflexivity).
    apply IH.
    + intros x Hx. apply Hcf. now right.
    + discriminate.
    + discriminate.
    + intro Hf. rewrite Hf, orb_true_r. cbn [R]. now rewrite En.
Qed.

(** every node below the root that does not clear the stack starts recording *)
Lemma walk_spec clear full cs leafc r :
  cs <> [] -> (forall c, In c (tl cs) -> clear c = false -> full c = true) -> full leafc = true ->
  snd (walk clear full cs leafc r 0) = R clear (rev cs).
Proof.
  intros Hne H Hl. destruct cs as [ | c cs]; [congruence | ]. cbn [tl] in H.
  cbn [walk]. replace (if clear c then (false, 0) else (r, 0)) with ((if clear c then false else r), 0)
    by now destruct (clear c).
  destruct cs as [ | c' cs].
  - cbn [walk rev app R snd]. rewrite Hl, orb_true_r. destruct (clear c); reflexivity.
  - rewrite (walk_gen clear full [c] (c' :: cs)); auto; try discriminate.
    intro Hf. rewrite Hf, orb_true_r. cbn [R]. now destruct (clear c).
Qed.

Lemma posn_bounds rest rp w c : lvok rest w -> posn rest rp c ->
  forall x, In x (rev (tl (rev (bcounts rest rp)))) -> bounds x.
Proof.
  revert rp w c. induction rest as [ | g rest IH]; intros rp w c Hl Hp x Hx.
  - destruct rp; cbn in *; easy.
  - destruct rp as [ | j rp]; [easy | ]. cbn [bcounts] in Hx. destruct Hl as (H1 & H2 & H3).
    destruct Hp as (P1 & P2 & P3). cbn [rev] in Hx.
    destruct rest as [ | g' rest].
    + destruct rp; cbn in P3; [ | easy]. cbn in Hx. easy.
    + destruct rp as [ | j' rp]; [easy | ].
      rewrite tl_app in Hx.
      * rewrite rev_app_distr in Hx. cbn [rev app] in Hx. destruct Hx as [ <- | Hx].
        -- rewrite Forall_forall in H3. apply H3, nth_In. exact P1.
        -- exact (IH (j' :: rp) _ _ H2 P3 x Hx).
      * cbn [bcounts rev]. intro E. apply (f_equal (@length _)) in E. rewrite app_length in E. cbn in E. lia.
Qed.

End Bounds.
