From Coq Require Import Sorting.Permutation Sorting.Sorted.
From Verif Require Import Bytes Outcome VersionModel VersionProofs RowDelModel RowDelSpec RowDelProofs RowGrpModel RowGrpSpec RowGrpProofs UpdModel UpdSpec.
Local Open Scope nat_scope.

Lemma nth_error_ext' {B} (l l' : list B) : (forall n, nth_error l n = nth_error l' n) -> l = l'.
Proof. revert l'. induction l as [|x l IH]; intros [|y l'] H; auto; try (specialize (H 0); discriminate). f_equal; [specialize (H 0); cbn in H; congruence|]. apply IH. intros n. apply (H (S n)). Qed.
(** *** sorting *)
Section Sort.
Variable sort : list nat -> list nat.
Hypothesis HS : sorts sort.

Lemma increasing_ok ids : increasing ids = true -> StronglySorted lt ids.
Proof.
  induction ids as [|a l IH]; intros H; [constructor|]. destruct l as [|b l]; [repeat constructor|]. change ((a <? b) && increasing (b :: l) = true) in H. apply andb_true_iff in H. destruct H as [H1 H2].
  specialize (IH H2). constructor; [exact IH|]. inversion IH; subst. constructor; [lia|]. eapply Forall_impl; [|eassumption]. cbn. intros; lia.
Qed.
Lemma increasing_back ids : StronglySorted lt ids -> increasing ids = true.
Proof. induction 1 as [|a l S IH F]; [reflexivity|]. destruct l as [|b l]; [reflexivity|]. change ((a <? b) && increasing (b :: l) = true). rewrite IH. inversion F; subst. replace (a <? b) with true by lia. reflexivity. Qed.
Lemma dedup_all ids : NoDup ids -> forall l prev, NoDup (prev :: l) -> Forall (fun i => i < length ids) (prev :: l) -> dedup ids prev l = l.
Proof.
  intros ND. induction l as [|i l IH]; intros prev N F; cbn [dedup]; [reflexivity|]. inversion N as [|? ? N1 N2]; subst. inversion F as [|? ? F1 F2]; subst. inversion F2 as [|? ? F3 F4]; subst.
  destruct (key ids prev =? key ids i) eqn:E.
  { apply Nat.eqb_eq in E. unfold key in E. apply NoDup_nth in E; auto. subst. exfalso. apply N1. left. reflexivity. }
  rewrite IH; auto.
Qed.
Lemma keys_seq ids : map (key ids) (seq 0 (length ids)) = ids.
Proof.
  apply nth_error_ext'. intros n. rewrite nth_error_map. destruct (lt_dec n (length ids)) as [L|L].
  - rewrite (nth_error_nth' _ 0) by (rewrite seq_length; lia). rewrite seq_nth by lia. cbn. unfold key. symmetry. apply nth_error_nth'. lia.
  - rewrite (proj2 (nth_error_None _ _)) by (rewrite seq_length; lia). symmetry. apply nth_error_None. lia.
Qed.
Lemma le_lt_sorted (l : list nat) : NoDup l -> StronglySorted le l -> StronglySorted lt l.
Proof. intros N S. induction S as [|a l S IH F]; [constructor|]. inversion N; subst. constructor; [auto|]. rewrite Forall_forall in *. intros x Hx. specialize (F x Hx). assert (x <> a) by (intros ->; contradiction). lia. Qed.
Lemma sort_index_ok ids : NoDup ids -> Permutation (sort_index sort ids) (seq 0 (length ids)) /\ StronglySorted lt (map (key ids) (sort_index sort ids)).
Proof.
  intros ND. unfold sort_index. destruct (increasing ids) eqn:E.
  - split; [reflexivity|]. rewrite keys_seq. apply increasing_ok, E.
  - destruct (HS ids) as [P S]. assert (Q : (match sort ids with [] => [] | i :: r => i :: dedup ids i r end) = sort ids).
    { destruct (sort ids) as [|i r] eqn:Es; [reflexivity|]. f_equal. apply dedup_all; [exact ND| |].
      - eapply Permutation_NoDup; [symmetry; exact P|apply seq_NoDup].
      - apply Forall_forall. intros x Hx. apply (Permutation_in _ P), in_seq in Hx. lia. }
    rewrite Q. split; [exact P|]. apply le_lt_sorted; [|exact S]. change (fun i => nth i ids 0) with (key ids).
    eapply Permutation_NoDup; [symmetry; apply Permutation_map, P|]. rewrite keys_seq. exact ND.
Qed.

Context {A : Type}.
Notation info := (list (nat * A)).
Definition ssorted (i : info) : Prop := StronglySorted lt (map fst i).
Lemma news_ok (l : info) off : NoDup (map fst l) -> Forall (fun p => off <= fst p < off + CAP) l ->
  let news := flat_map (pick l off) (sort_index sort (map fst l)) in
  ssorted news /\ (forall o a, In (o, a) news <-> In (off + o, a) l) /\ Forall (fun p => fst p < CAP) news.
Proof.
  intros ND F. destruct (sort_index_ok _ ND) as [P S]. set (idx := sort_index sort (map fst l)) in *. cbn zeta.
  assert (I : forall o a, In (o, a) (flat_map (pick l off) idx) <-> In (off + o, a) l).
  { intros o a. rewrite in_flat_map. split.
    - intros (i & Hi & H). unfold pick in H. destruct (nth_error l i) as [[id b]|] eqn:E; [|destruct H]. destruct H as [H|[]]. inversion H; subst. apply nth_error_In in E. rewrite Forall_forall in F. specialize (F _ E). cbn in F.
      replace (off + (id - off)) with id by lia. exact E.
    - intros H. apply In_nth_error in H. destruct H as [i E]. exists i. split.
      + apply (Permutation_in _ (Permutation_sym P)), in_seq. rewrite map_length. assert (i < length l) by (apply nth_error_Some; congruence). lia.
      + unfold pick. rewrite E. left. f_equal. lia. }
  split; [|split; [exact I|]].
  - unfold ssorted. assert (B : Forall (fun i => i < length l) idx). { apply Forall_forall. intros x Hx. apply (Permutation_in _ P), in_seq in Hx. rewrite map_length in Hx. lia. }
    clear P I. clearbody idx. revert S B. induction idx as [|i idx IH]; intros S B; [constructor|]. inversion B as [|? ? B1 B2]; subst. cbn [map] in S. inversion S as [|? ? S1 S2]; subst. cbn [flat_map]. rewrite map_app.
    destruct (nth_error l i) as [[id a]|] eqn:E; [|apply nth_error_None in E; lia]. unfold pick at 1. rewrite E. cbn [map app fst]. constructor; [auto|].
    apply Forall_forall. intros x Hx. apply in_map_iff in Hx. destruct Hx as ([o b] & <- & Hx). apply in_flat_map in Hx. destruct Hx as (j & Hj & Hx). unfold pick in Hx. destruct (nth_error l j) as [[id' b']|] eqn:E'; [|destruct Hx]. destruct Hx as [Hx|[]]. inversion Hx; subst. cbn [fst].
    rewrite Forall_forall in S2. specialize (S2 (key (map fst l) j) (in_map _ _ _ Hj)).
    assert (K : forall i p, nth_error l i = Some p -> key (map fst l) i = fst p). { intros i0 p Ep. unfold key. apply nth_error_nth. rewrite nth_error_map, Ep. reflexivity. }
    rewrite (K _ _ E), (K _ _ E') in S2. cbn in S2. rewrite Forall_forall in F. pose proof (F _ (nth_error_In _ _ E)). pose proof (F _ (nth_error_In _ _ E')). cbn in *. lia.
  - apply Forall_forall. intros [o a] H. apply I in H. rewrite Forall_forall in F. specialize (F _ H). cbn in *. lia.
Qed.
End Sort.

(** *** merging *)
Section Merge.
Context {A : Type}.
Notation info := (list (nat * A)).
Lemma ssorted_cons p (i : info) : ssorted (p :: i) <-> ssorted i /\ Forall (fun q => fst p < fst q) i.
Proof.
  unfold ssorted. cbn [map]. split; intros H.
  - inversion H; subst. split; [assumption|]. rewrite Forall_map in H3. exact H3.
  - destruct H as [H1 H2]. constructor; [exact H1|]. rewrite Forall_map. exact H2.
Qed.
Definition top (olds : info) (n : nat) : Prop := exists p, In p olds /\ n <= fst p.
Lemma merge_sound : forall (news olds r : info), ssorted news -> ssorted olds -> merge_new news olds = Ok r ->
  ssorted r /\ forall o a, In (o, a) r <-> In (o, a) news \/ (In (o, a) olds /\ ~ In o (map fst news)).
Proof.
  induction news as [|[i a] n IHn]; intros olds r Sn So E.
  - assert (E' : olds = r) by (destruct olds; cbn in E; congruence). subst r. split; [exact So|]. intros. cbn. tauto.
  - revert r So E. induction olds as [|[j b] o IHo]; intros r So E; [discriminate E|].
    cbn [merge_new] in E. fold (merge_new n) in E. apply ssorted_cons in Sn. destruct Sn as [Sn Fn]. pose proof So as So0. apply ssorted_cons in So. destruct So as [So Fo]. cbn [fst] in *. rewrite Forall_forall in Fn, Fo.
    destruct (i =? j) eqn:Q; [|destruct (i <? j) eqn:Q2].
    + destruct (merge_new n o) as [r'|] eqn:E'; [|discriminate]. inversion E; subst. destruct (IHn _ _ Sn So E') as [R1 R2]. assert (i = j) by lia. subst j. split.
      * apply ssorted_cons. split; [exact R1|]. apply Forall_forall. intros [x y] H. apply R2 in H. cbn. destruct H as [H|[H _]]; [apply (Fn _ H)|apply (Fo _ H)].
      * intros x y. cbn [In map fst]. rewrite R2. split.
        -- intros [H|[H|[H1 H2]]]; auto. right. split; [auto|]. intros [->|H3]; [|auto]. specialize (Fo _ H1). cbn in Fo. lia.
        -- intros [[H|H]|[[H1|H1] H2]]; auto. { inversion H1; subst. exfalso. apply H2. auto. } right. right. split; [exact H1|]. intros H3. apply H2. auto.
    + destruct (merge_new n ((j, b) :: o)) as [r'|] eqn:E'; [|discriminate]. inversion E; subst. destruct (IHn _ _ Sn So0 E') as [R1 R2]. split.
      * apply ssorted_cons. split; [exact R1|]. apply Forall_forall. intros [x y] H. apply R2 in H. cbn. destruct H as [H|[H _]]; [apply (Fn _ H)|]. destruct H as [H|H]; [inversion H; subst; lia|specialize (Fo _ H); cbn in Fo; lia].
      * intros x y. cbn [In map fst]. rewrite R2. cbn [In]. split.
        -- intros [H|[H|[H1 H2]]]; auto. right. split; [auto|]. intros [->|H3]; [|auto]. destruct H1 as [H1|H1]; [inversion H1; subst; lia|]. specialize (Fo _ H1). cbn in Fo. lia.
        -- intros [[H|H]|[H1 H2]]; auto. right. right. split; [exact H1|]. intros H3. apply H2. auto.
    + cbv zeta in E. match type of E with (do r0 <- ?t; _) = _ => destruct t as [r'|] eqn:E' end; [|discriminate]. inversion E; subst.
      assert (Sn0 : ssorted ((i, a) :: n)) by (apply ssorted_cons; split; [exact Sn|apply Forall_forall; exact Fn]).
      destruct (IHo r' So) as [R1 R2]. { exact E'. } split.
      * apply ssorted_cons. split; [exact R1|]. apply Forall_forall. intros [x y] H. apply R2 in H. cbn. destruct H as [[H|H]|[H _]]; [inversion H; subst; lia|specialize (Fn _ H); cbn in Fn; lia|apply (Fo _ H)].
      * intros x y. cbn [In map fst]. rewrite R2. cbn [In map fst]. split.
        -- intros [H|[H|[H1 H2]]]; auto; try tauto. inversion H; subst. right. split; [auto|]. intros [H3|H3]; [lia|]. apply in_map_iff in H3. destruct H3 as ([z w] & H3 & H4). specialize (Fn _ H4). cbn in Fn, H3. lia.
        -- intros [H|[[H1|H1] H2]]; auto.
Qed.
Lemma merge_total : forall (news olds : info), ssorted news -> ssorted olds -> Forall (fun p => top olds (fst p)) news -> exists r, merge_new news olds = Ok r.
Proof.
  induction news as [|[i a] n IHn]; intros olds Sn So T; [exists olds; destruct olds; reflexivity|].
  revert So T. induction olds as [|[j b] o IHo]; intros So T; [inversion T as [|? ? (p & [] & _)]|].
  cbn [merge_new]. fold (merge_new n). pose proof Sn as Sn0. apply ssorted_cons in Sn. destruct Sn as [Sn Fn]. pose proof So as So0. apply ssorted_cons in So. destruct So as [So Fo]. cbn [fst] in *. rewrite Forall_forall in Fn, Fo. inversion T as [|? ? T1 T2]; subst. cbn [fst] in T1.
  destruct (i =? j) eqn:Q; [|destruct (i <? j) eqn:Q2].
  - destruct (IHn o Sn So) as [r ->]; [|eexists; reflexivity]. rewrite Forall_forall in *. intros p Hp. destruct (T2 p Hp) as (q & [Hq|Hq] & L); [subst q; specialize (Fn p Hp); cbn in *; lia|exists q; auto].
  - destruct (IHn ((j, b) :: o) Sn So0 T2) as [r ->]. eexists; reflexivity.
  - cbv zeta. destruct (IHo So) as [r Hr]; [|cbn [merge_new] in Hr; fold (merge_new n) in Hr].
    + rewrite Forall_forall in *. intros p Hp. destruct (T p Hp) as (q & [Hq|Hq] & L); [|exists q; auto]. subst q. cbn in L. exfalso. destruct Hp as [<-|Hp]; [cbn in L; lia|]. specialize (Fn p Hp). cbn in Fn. lia.
    + match goal with |- context [do r0 <- ?t; _] => replace t with (Ok r) by (symmetry; exact Hr) end. eexists; reflexivity.
Qed.
Lemma merge_beyond i a (olds : info) : Forall (fun p => fst p < i) olds -> merge_new [(i, a)] olds = Err UB.
Proof. induction 1 as [|[j b] o H F IH]; [reflexivity|]. cbn [fst] in H. cbn [merge_new]. replace (i =? j) with false by lia. replace (i <? j) with false by lia. change ((do r <- merge_new [(i, a)] o; Ok ((j, b) :: r)) = Err UB). rewrite IH. reflexivity. Qed.

(** *** reading *)
Lemma lower_in (i : info) row p : ssorted i -> In p (lower row i) <-> In p i /\ row <= fst p.
Proof.
  induction i as [|[j a] i IH]; intros S; cbn [lower]; [cbn; tauto|]. apply ssorted_cons in S. destruct S as [S F]. rewrite Forall_forall in F. cbn [fst] in F. destruct (j <? row) eqn:Q.
  - rewrite IH by exact S. cbn [In]. split; [tauto|]. intros [[H|H] L]; [subst p; cbn in L; lia|auto].
  - split; [|tauto]. intros H. split; [exact H|]. destruct H as [<-|H]; [cbn; lia|]. specialize (F p H). lia.
Qed.
Lemma lower_sorted (i : info) row : ssorted i -> ssorted (lower row i).
Proof. induction i as [|[j a] i IH]; intros S; cbn [lower]; [exact S|]. destruct (j <? row); [|exact S]. apply IH. apply ssorted_cons in S. tauto. Qed.
Lemma find_row_in (i : info) row a : ssorted i -> find_row i row = Some a <-> In (row, a) i.
Proof.
  intros S. unfold find_row. pose proof (lower_in i row) as L. pose proof (lower_sorted i row S) as SL. destruct (lower row i) as [|[j b] r].
  - split; [discriminate|]. intros H. exfalso. apply (proj2 (L (row, a) S)). cbn. auto.
  - apply ssorted_cons in SL. destruct SL as [_ F]. rewrite Forall_forall in F. destruct (j =? row) eqn:Q.
    + assert (j = row) by lia. subst j. split; [intros [= ->]; apply (L (row, a) S); left; reflexivity|]. intros H. assert (K : In (row, a) ((row, b) :: r)) by (apply L; cbn; auto).
      destruct K as [K|K]; [inversion K; reflexivity|]. specialize (F _ K). cbn in F. lia.
    + split; [discriminate|]. intros H. assert (K : In (row, a) ((j, b) :: r)) by (apply L; cbn; auto). assert (J : row <= j) by (apply (proj1 (L (j, b) S) (or_introl eq_refl))). destruct K as [K|K]; [inversion K; subst; lia|]. specialize (F _ K). cbn in F. lia.
Qed.
Lemma find_row_none (i : info) row : ssorted i -> find_row i row = None <-> ~ In row (map fst i).
Proof.
  intros S. split.
  - intros E H. apply in_map_iff in H. destruct H as ([r a] & Hr & H). cbn in Hr. subst r. apply find_row_in in H; [congruence|exact S].
  - intros H. destruct (find_row i row) as [a|] eqn:E; [|reflexivity]. exfalso. apply H. apply find_row_in in E; [|exact S]. apply in_map_iff. exists (row, a). auto.
Qed.
Lemma ssorted_nodup (i : info) : ssorted i -> NoDup (map fst i).
Proof. unfold ssorted. induction 1 as [|a l S IH F]; constructor; auto. intros H. rewrite Forall_forall in F. specialize (F _ H). lia. Qed.
Lemma fold_upd_len (i : info) : forall rows : list A, length (fold_left (fun r p => upd r (fst p) (snd p)) i rows) = length rows.
Proof. induction i as [|p i IH]; intros rows; cbn; [reflexivity|]. rewrite IH. apply upd_length. Qed.
Lemma fold_upd_nth (i : info) : ssorted i -> forall (rows : list A) o, Forall (fun p => fst p < length rows) i -> nth_error (fold_left (fun r p => upd r (fst p) (snd p)) i rows) o = match find_row i o with Some a => Some a | None => nth_error rows o end.
Proof.
  intros S rows o. revert rows. induction i as [|[j a] i IH]; intros rows F; [reflexivity|]. cbn [fold_left fst snd]. inversion F as [|? ? F1 F2]; subst. cbn in F1. pose proof S as S0. apply ssorted_cons in S. destruct S as [S FS]. rewrite IH; [|exact S|rewrite upd_length; exact F2].
  rewrite upd_nth by exact F1. destruct (find_row i o) as [b|] eqn:E.
  - apply find_row_in in E; [|exact S]. replace (find_row ((j, a) :: i) o) with (Some b); [reflexivity|]. symmetry. apply find_row_in; [exact S0|]. right. exact E.
  - destruct (o =? j) eqn:Q.
    + assert (o = j) by lia. subst o. replace (find_row ((j, a) :: i) j) with (Some a); [reflexivity|]. symmetry. apply find_row_in; [exact S0|]. left. reflexivity.
    + replace (find_row ((j, a) :: i) o) with (@None A); [reflexivity|]. symmetry. apply find_row_none; [exact S0|]. apply find_row_none in E; [|exact S]. cbn. intros [H|H]; [lia|contradiction].
Qed.
Lemma sorted_seq (l : list nat) : forall s n, StronglySorted lt l -> Forall (fun x => s <= x < s + n) l -> length l = n -> l = seq s n.
Proof.
  induction l as [|x l IH]; intros s n S F L; cbn in L; [subst; reflexivity|]. destruct n as [|n]; [lia|]. inversion S as [|? ? S1 S2]; subst. inversion F as [|? ? F1 F2]; subst.
  assert (x = s).
  { clear IH S F. assert (Q : forall l y m, StronglySorted lt l -> Forall (fun z => y < z) l -> Forall (fun z => z < y + 1 + m) l -> length l <= m).
    { clear. induction l as [|z l IH]; intros y m S G H; [cbn; lia|]. inversion S; subst. inversion G; subst. inversion H; subst. cbn. specialize (IH z (m - (z - y)) H2 H3). assert (length l <= m - (z - y)); [|lia]. apply IH. eapply Forall_impl; [|exact H7]. cbn. intros; lia. }
    specialize (Q l x (s + n - x) S1 S2). assert (length l <= s + n - x); [apply Q; eapply Forall_impl; [|exact F2]; cbn; intros; lia|]. lia. }
  subst x. cbn. f_equal. apply IH; [exact S1| |lia]. rewrite Forall_forall in *. intros z Hz. specialize (S2 z Hz). specialize (F2 z Hz). lia.
Qed.
Lemma over1_nth (i : info) (rows : list A) o : ssorted i -> Forall (fun p => fst p < length rows) i -> length rows <= CAP -> nth_error (over1 (Some i) rows) o = match find_row i o with Some a => Some a | None => nth_error rows o end.
Proof.
  intros S F L. unfold over1. destruct (length i =? CAP) eqn:Q; [|apply fold_upd_nth; assumption]. apply Nat.eqb_eq in Q.
  assert (E : map fst i = seq 0 CAP). { apply sorted_seq; [exact S| |rewrite map_length; exact Q]. rewrite Forall_map. eapply Forall_impl; [|exact F]. cbn. intros; lia. }
  assert (LR : length rows = CAP). { destruct (Nat.eq_dec (length rows) CAP) as [H|H]; [exact H|]. assert (K : In (CAP - 1) (map fst i)) by (rewrite E; apply in_seq; pose proof CAP_big; lia). apply in_map_iff in K. destruct K as (p & K1 & K2). rewrite Forall_forall in F. specialize (F p K2). pose proof CAP_big. lia. }
  rewrite nth_error_map. destruct (nth_error i o) as [[j a]|] eqn:En; cbn [option_map snd].
  - assert (j = o). { assert (O : o < CAP) by (rewrite <- Q; apply nth_error_Some; congruence). assert (K : nth_error (map fst i) o = Some o). { rewrite E. rewrite (nth_error_nth' _ 0) by (rewrite seq_length; exact O). rewrite seq_nth by exact O. reflexivity. } rewrite nth_error_map, En in K. cbn in K. congruence. }
    subst j. apply nth_error_In in En. apply find_row_in in En; [|exact S]. rewrite En. reflexivity.
  - apply nth_error_None in En. replace (find_row i o) with (@None A); [symmetry; apply nth_error_None; lia|]. symmetry. apply find_row_none; [exact S|]. rewrite E. intros H. apply in_seq in H. lia.
Qed.
Lemma over1_len (i : info) (rows : list A) : ssorted i -> Forall (fun p => fst p < length rows) i -> length rows <= CAP -> length (over1 (Some i) rows) = length rows.
Proof.
  intros S F L. unfold over1. destruct (length i =? CAP) eqn:Q; [|apply fold_upd_len]. apply Nat.eqb_eq in Q.
  assert (E : map fst i = seq 0 CAP). { apply sorted_seq; [exact S| |rewrite map_length; exact Q]. rewrite Forall_map. eapply Forall_impl; [|exact F]. cbn. intros; lia. }
  rewrite map_length, Q. destruct (Nat.eq_dec (length rows) CAP) as [H|H]; [auto|]. assert (K : In (CAP - 1) (map fst i)) by (rewrite E; apply in_seq; pose proof CAP_big; lia). apply in_map_iff in K. destruct K as (p & K1 & K2). rewrite Forall_forall in F. specialize (F p K2). pose proof CAP_big. lia.
Qed.
End Merge.

(** *** the table with the updates written into its rows *)
Section Eff.
Context {A : Type}.
Notation info := (list (nat * A)).
Implicit Types (g : group A) (gs : list (group A)) (t : tab A).

Definition effg (o : option info) (g : group A) : group A := {| g_start := g_start g; g_data := over1 o (g_data g); g_del := g_del g |}.
Fixpoint effs (u : nat -> nat -> option info) (k : nat) (gs : list (group A)) : list (group A) :=
  match gs with [] => [] | g :: r => effg (u k 0) g :: effs u (S k) r end.
Definition eff (t : tab A) : coll A := with_groups (base t) (effs (upds t) 0 (groups (base t))).

Definition gok (inf : nat -> option info) (g : group A) : Prop :=
  (forall v, v <> 0 -> inf v = None) /\ match inf 0 with None => True | Some i => i <> [] /\ ssorted i /\ Forall (fun p => fst p < length (g_data g)) i end.
Definition small (g : group A) : Prop := g_count g <= CAP /\ length (g_data g) = g_count g.

Lemma over_len inf g : gok inf g -> small g -> length (over1 (inf 0) (g_data g)) = length (g_data g).
Proof. intros [_ H] [S1 S2]. destruct (inf 0) as [i|]; [|reflexivity]. destruct H as (_ & H1 & H2). apply over1_len; [exact H1|exact H2|lia]. Qed.
Lemma effs_nth u gs : forall k j, nth_error (effs u k gs) j = option_map (effg (u (k + j) 0)) (nth_error gs j).
Proof. induction gs as [|g gs IH]; intros k [|j]; cbn; auto; [rewrite Nat.add_0_r; reflexivity|]. rewrite IH. replace (S k + j) with (k + S j) by lia. reflexivity. Qed.
Lemma effs_len u gs : forall k, length (effs u k gs) = length gs.
Proof. induction gs as [|g gs IH]; intros k; cbn; auto. Qed.
Lemma effs_skip u gs : forall n k, skipn n (effs u k gs) = effs u (k + n) (skipn n gs).
Proof. induction gs as [|g gs IH]; intros [|n] k; cbn; auto; [rewrite Nat.add_0_r; reflexivity|]. rewrite IH. f_equal. lia. Qed.
Lemma effs_sc u gs : forall k, map (fun g => (g_start g, g_count g)) (effs u k gs) = map (fun g => (g_start g, g_count g)) gs.
Proof. induction gs as [|g gs IH]; intros k; cbn; [reflexivity|]. rewrite IH. reflexivity. Qed.
Lemma effs_app u gs1 gs2 : forall k, effs u k (gs1 ++ gs2) = effs u k gs1 ++ effs u (k + length gs1) gs2.
Proof. induction gs1 as [|g gs IH]; intros k; cbn; [rewrite Nat.add_0_r; reflexivity|]. rewrite IH. do 2 f_equal. f_equal. lia. Qed.

(** the scan *)
Lemma u_past n g inf f cpos vec m : m <= vec * CAP -> u_scan_group (S n) g inf f vec m cpos = Ok (None, vec, cpos).
Proof. intros H. cbn [u_scan_group]. replace (m <=? vec * CAP) with true by lia. reflexivity. Qed.
Lemma s_past n g f cpos vec m : m <= vec * CAP -> scan_group (S n) g f vec m cpos = Ok (None, vec, cpos).
Proof. intros H. cbn [scan_group]. replace (m <=? vec * CAP) with true by lia. reflexivity. Qed.
Lemma scan_group_eff n g inf m : gok inf g -> small g -> m <= CAP -> u_scan_group (S (S n)) g inf None 0 m 0 = scan_group (S (S n)) (effg (inf 0) g) None 0 m 0.
Proof.
  intros G S M. pose proof (over_len inf g G S) as OL. destruct S as [S1 S2]. cbn [u_scan_group scan_group]. destruct (m <=? 0 * CAP); [reflexivity|]. cbn [effg g_del g_data]. rewrite OL.
  replace (Nat.min CAP (length (g_data g) - 0 * CAP)) with (length (g_data g)) by lia. cbn [skipn]. rewrite firstn_all.
  assert (X : firstn (length (g_data g)) (over1 (inf 0) (g_data g)) = over1 (inf 0) (g_data g)) by (rewrite <- OL; apply firstn_all). rewrite X.
  replace (m <=? 1 * CAP) with true by lia. reflexivity.
Qed.
Definition good (st : sstate) : Prop := match s_group st with None => True | Some k => s_max st <= CAP /\ (s_vec st = 0 /\ s_cpos st = 0 \/ 1 <= s_vec st) end.
Lemma group_max_eff c o g : group_max c (effg o g) = group_max c g.
Proof. reflexivity. Qed.
Lemma max_row_eff t : max_row (eff t) = max_row (base t).
Proof. reflexivity. Qed.
Lemma next_eff t gs : forall k j, next_group (eff t) k (effs (upds t) j gs) = next_group (base t) k gs.
Proof. induction gs as [|g gs IH]; intros k j; cbn [effs next_group]; [reflexivity|]. rewrite max_row_eff, group_max_eff, IH. reflexivity. Qed.
Lemma first_eff t gs : forall k j, first_group (eff t) k (effs (upds t) j gs) = first_group (base t) k gs.
Proof. induction gs as [|g gs IH]; intros k j; cbn [effs first_group]; [reflexivity|]. rewrite max_row_eff, group_max_eff, IH. destruct gs; reflexivity. Qed.
Lemma next_good (c : coll A) gs : Forall small gs -> forall k, good (next_group c k gs).
Proof.
  induction 1 as [|g gs [S1 S2] F IH]; intros k; cbn [next_group]; [exact I|]. destruct (_ <=? _); [exact I|]. destruct (_ =? 0); [apply IH|]. unfold good, at_group. cbn [s_group s_max s_vec s_cpos]. split; [|auto].
  unfold group_max. destruct (_ <? _); lia.
Qed.
Lemma first_good (c : coll A) gs : Forall small gs -> forall k, good (first_group c k gs).
Proof.
  induction 1 as [|g gs [S1 S2] F IH]; intros k; cbn [first_group]; [exact I|]. destruct (_ =? 0); [destruct gs; [|apply IH]|]; unfold good, at_group; cbn [s_group s_max s_vec s_cpos]; (split; [|auto]); [lia|].
  unfold group_max. destruct (_ <? _); lia.
Qed.
Definition tok t : Prop := Forall small (groups (base t)) /\ forall k g, nth_error (groups (base t)) k = Some g -> gok (upds t k) g.
Lemma scan_next_eff t : tok t -> forall n st, good st -> u_scan_next n t None st = scan_next n (eff t) None st /\
  forall ch st', scan_next n (eff t) None st = Ok (ch, st') -> good st'.
Proof.
  intros [F G]. induction n as [|n IH]; intros st GS; [split; [reflexivity|discriminate]|]. cbn [u_scan_next scan_next]. unfold good in GS.
  destruct (s_group st) as [k|] eqn:SG; [|split; [reflexivity|intros ch st' [= <- <-]; unfold good; rewrite SG; exact I]]. destruct GS as [M V].
  change (groups (eff t)) with (effs (upds t) 0 (groups (base t))). rewrite effs_nth. cbn [Nat.add]. destruct (nth_error (groups (base t)) k) as [g|] eqn:E; cbn [option_map]; [|split; [reflexivity|discriminate]].
  pose proof (proj1 (Forall_nth _ _) F k g E) as Sg. specialize (G k g E).
  assert (Q : u_scan_group (S (S (s_max st))) g (upds t k) None (s_vec st) (s_max st) (s_cpos st) = scan_group (S (S (s_max st))) (effg (upds t k 0) g) None (s_vec st) (s_max st) (s_cpos st)).
  { destruct V as [[-> ->]|V]; [apply scan_group_eff; assumption|]. assert (s_max st <= s_vec st * CAP) by nia. rewrite u_past, s_past by assumption. reflexivity. }
  rewrite Q. destruct (scan_group _ _ _ _ _ _) as [[[o vec] cpos]|e] eqn:E2; [|split; [reflexivity|discriminate]]. cbn [rbind]. cbn [effg g_start g_count g_del].
  change (g_count (effg (upds t k 0) g)) with (g_count g). destruct o as [ch|].
  - split; [reflexivity|]. intros ch' st' [= <- <-]. unfold good. cbn [s_group s_max s_vec s_cpos]. split; [exact M|]. right. destruct V as [[V1 V2]|V].
    + rewrite V1, V2 in E2. cbn [scan_group] in E2. destruct (s_max st <=? 0 * CAP); [discriminate|]. destruct (length _ =? 0).
      * replace (s_max st <=? 1 * CAP) with true in E2 by lia. discriminate.
      * destruct (length _ =? _); [inversion E2; lia|]. destruct (gather _ _); [|discriminate]. cbn [rbind] in E2. inversion E2; lia.
    + rewrite s_past in E2 by nia. discriminate.
  - rewrite max_row_eff. destruct (_ <=? _); [split; [reflexivity|intros ch' st' [= <- <-]; exact I]|]. rewrite effs_skip. cbn [Nat.add]. rewrite next_eff. apply IH. apply next_good. rewrite Forall_forall in *. intros x Hx. apply F. rewrite <- (firstn_skipn (S k) (groups (base t))). apply in_or_app. right. exact Hx.
Qed.
Lemma scan_loop_eff t : tok t -> forall n st, good st -> u_scan_loop n t None st = scan_loop n (eff t) None st.
Proof.
  intros T. induction n as [|n IH]; intros st GS; [reflexivity|]. cbn [u_scan_loop scan_loop]. unfold u_scan_chunk, scan_chunk. change (groups (eff t)) with (effs (upds t) 0 (groups (base t))). rewrite effs_len.
  destruct (scan_next_eff t T (S (length (groups (base t)))) st GS) as [E G']. rewrite E. destruct (scan_next _ _ _ _) as [[[ch|] st']|] eqn:E2; cbn [rbind]; [|reflexivity|reflexivity]. rewrite IH; [reflexivity|]. eapply G'. reflexivity.
Qed.
Lemma scan_all_eff t : tok t -> u_scan_all t None = scan_all (eff t) None.
Proof.
  intros T. unfold u_scan_all, scan_all, init_scan. change (groups (eff t)) with (effs (upds t) 0 (groups (base t))). rewrite first_eff. apply scan_loop_eff; [exact T|]. apply first_good, T.
Qed.
Lemma select_eff t limit : tok t -> u_select t None limit = select_rows (eff t) None limit.
Proof.
  intros T. unfold u_select, select_rows, u_select_chunk, select_chunk. destruct limit as [[|n]|]; [reflexivity| |]; unfold u_scan_chunk, scan_chunk, init_scan; change (groups (eff t)) with (effs (upds t) 0 (groups (base t))); rewrite effs_len, first_eff;
   (destruct (scan_next_eff t T (S (length (groups (base t)))) _ (first_good (base t) _ (proj1 T) 0)) as [E _]; rewrite E; reflexivity).
Qed.

(** fetching *)
Lemma bsearch_ext gs gs' : map (fun g => (g_start g, g_count g)) gs = map (fun g => (g_start g, g_count g)) gs' -> forall fuel lo up row, bsearch fuel gs lo up row = bsearch fuel gs' lo up row.
Proof.
  intros E. assert (L : length gs = length gs') by (rewrite <- (map_length (fun g => (g_start g, g_count g)) gs), E, map_length; reflexivity).
  induction fuel as [|fuel IH]; intros lo up row; cbn [bsearch]; [reflexivity|]. destruct (lo <=? up)%N; [|reflexivity]. cbv zeta. rewrite L. destruct (_ <? _)%N; [|reflexivity].
  set (ix := N.to_nat _). assert (K : option_map (fun g => (g_start g, g_count g)) (nth_error gs ix) = option_map (fun g => (g_start g, g_count g)) (nth_error gs' ix)) by (rewrite <- !nth_error_map, E; reflexivity).
  destruct (nth_error gs ix) as [g|], (nth_error gs' ix) as [g'|]; cbn in K; try discriminate; [|reflexivity]. injection K as K1 K2. rewrite K1, K2, !IH. reflexivity.
Qed.
Lemma lookup_ext gs gs' row : map (fun g => (g_start g, g_count g)) gs = map (fun g => (g_start g, g_count g)) gs' -> lookup gs row = lookup gs' row.
Proof.
  intros E. assert (L : length gs = length gs') by (rewrite <- (map_length (fun g => (g_start g, g_count g)) gs), E, map_length; reflexivity).
  unfold lookup. destruct gs, gs'; try discriminate; [reflexivity|]. rewrite <- L. apply bsearch_ext, E.
Qed.
Lemma fetch_eff t ids : tok t -> u_fetch t ids = fetch_rows (eff t) ids.
Proof.
  intros [F G]. induction ids as [|id ids IH]; [reflexivity|]. cbn [u_fetch fetch_rows]. change (groups (eff t)) with (effs (upds t) 0 (groups (base t))). rewrite (lookup_ext _ _ id (effs_sc (upds t) (groups (base t)) 0)).
  destruct (lookup (groups (base t)) id) as [[k|]|]; cbn [rbind]; [|exact IH|reflexivity]. rewrite effs_nth. cbn [Nat.add]. destruct (nth_error (groups (base t)) k) as [g|] eqn:E; cbn [option_map]; [|reflexivity].
  pose proof (proj1 (Forall_nth _ _) F k g E) as [S1 S2]. specialize (G k g E). destruct G as [_ G]. cbn [effg g_start g_data]. set (o := id - g_start g). rewrite IH.
  destruct (nth_error (g_data g) o) as [a|] eqn:En.
  - assert (O : o < length (g_data g)) by (apply nth_error_Some; congruence). assert (D : o / CAP = 0) by (apply Nat.div_small; lia). unfold upd_at. rewrite D. cbn [Nat.mul]. rewrite Nat.sub_0_r.
    destruct (upds t k 0) as [i|]; [|cbn [over1]; rewrite En; reflexivity]. destruct G as (_ & G1 & G2). rewrite over1_nth by (auto; lia). rewrite En. destruct (find_row i o); reflexivity.
  - apply nth_error_None in En. destruct (upds t k 0) as [i|]; [|cbn [over1]; rewrite (proj2 (nth_error_None _ _)) by lia; reflexivity]. destruct G as (_ & G1 & G2).
    rewrite (proj2 (nth_error_None _ _)); [reflexivity|]. rewrite over1_len by (auto; lia). exact En.
Qed.

(** *** the invariant *)
Definition URel (t : tab A) (rows : list A) (d : nat -> bool) (w : N) (W : nat -> Prop) : Prop :=
  (exists rows0, Inv (base t) rows0 d w /\ length rows0 = length rows) /\ gsize (base t) = CAP /\ row_start (base t) = 0 /\ shape (base t) /\ tok t /\
  (forall k, length (groups (base t)) <= k -> forall v, upds t k v = None) /\
  (forall k g, nth_error (groups (base t)) k = Some g -> forall o, o < g_count g -> (W (g_start g + o) <-> match upds t k 0 with Some i => In o (map fst i) | None => False end)) /\
  (forall r, W r -> r < length rows) /\ concat (map g_data (groups (eff t))) = rows.

Lemma effs_small u gs : Forall small gs -> forall k, (forall j g, nth_error gs j = Some g -> gok (u (k + j)) g) -> Forall small (effs u k gs).
Proof.
  induction 1 as [|g gs Sm F IH]; intros k G; cbn [effs]; constructor.
  - split; [apply Sm|]. cbn [effg g_data]. rewrite (over_len (u k) g); [apply Sm| |exact Sm]. specialize (G 0 g eq_refl). rewrite Nat.add_0_r in G. exact G.
  - apply IH. intros j g' E. replace (S k + j) with (k + S j) by lia. apply (G (S j) g' E).
Qed.
Lemma rel_inv t rows d w W : URel t rows d w W -> Inv (eff t) rows d w.
Proof.
  intros ((rows0 & (Z & (L1 & L2 & L3 & L4) & D & GV) & LR) & S & R & SH & (T1 & T2) & U1 & U2 & U3 & C). unfold Inv, layout. cbn [eff with_groups gsize row_start total groups]. change (effs (upds t) 0 (groups (base t))) with (groups (eff t)). rewrite R in *. csplit.
  - exact Z.
  - eapply contiguous_ext; [|exact L1]. symmetry. apply effs_sc.
  - rewrite S. apply effs_small; [exact T1|exact T2].
  - rewrite <- LR. exact L3.
  - exact C.
  - intros r H. apply D. lia.
  - apply Forall_nth. intros j g E. change (groups (eff t)) with (effs (upds t) 0 (groups (base t))) in E. rewrite effs_nth in E. cbn [Nat.add] in E. destruct (nth_error (groups (base t)) j) as [g0|] eqn:E0; [|discriminate]. cbn in E. inversion E; subst. exact (proj1 (Forall_nth _ _) GV j g0 E0).
Qed.
Lemma rel_groups t rows d w W : URel t rows d w W -> (N.of_nat (length rows) + 1 < 2 ^ 63)%N -> (N.of_nat (length (groups (base t))) < 2 ^ 63)%N.
Proof. intros ((rows0 & I & L) & _ & _ & SH & _) B. apply (shape_groups _ _ _ _ I SH). rewrite L. exact B. Qed.
Lemma rel_new : URel new_tab [] none_deleted 0 (fun _ => False).
Proof.
  unfold URel, new_tab, tok. cbn [base upds]. csplit; try reflexivity; try tauto.
  - exists []. split; [apply Inv_new|reflexivity].
  - left. reflexivity.
  - constructor.
  - intros k g E. destruct k; discriminate.
Qed.

(** starts are multiples of the capacity *)
Lemma fbl_starts gs : forall s, fbl CAP gs -> contiguous s gs -> Forall (fun g => length (g_data g) = g_count g) gs -> forall k g, nth_error gs k = Some g -> g_start g = s + k * CAP.
Proof.
  induction gs as [|g gs IH]; intros s F C L k h E; [destruct F|]. destruct C as [C1 C2]. inversion L as [|? ? L1 L2]; subst. destruct k as [|k]; [cbn in E; inversion E; subst; lia|]. cbn [nth_error] in E. cbn [fbl] in F. destruct gs as [|g2 gs]; [destruct k; discriminate|]. destruct F as [F1 F2].
  rewrite (IH _ F2 C2 L2 k h E). rewrite <- L1, F1. lia.
Qed.
Lemma rel_start t rows d w W k g : URel t rows d w W -> nth_error (groups (base t)) k = Some g -> g_start g = k * CAP /\ g_count g <= CAP /\ g_start g + g_count g <= length rows /\ length (g_data g) = g_count g.
Proof.
  intros ((rows0 & (Z & L & D & GV) & LR) & S & R & SH & (T1 & T2) & _) E. pose proof (layout_sum _ _ L) as SM. destruct L as (L1 & L2 & L3 & L4).
  assert (Fd : Forall (fun g => length (g_data g) = g_count g) (groups (base t))) by (eapply Forall_impl; [|exact T1]; unfold small; tauto).
  destruct SH as [SH|SH]; [rewrite SH in E; destruct k; discriminate|]. rewrite S in SH. rewrite (fbl_starts _ _ SH L1 Fd k g E), R. pose proof (proj1 (Forall_nth _ _) T1 k g E) as [X1 X2]. pose proof (contiguous_bound _ _ _ _ L1 E). rewrite (fbl_starts _ _ SH L1 Fd k g E), R in *. csplit; auto; lia.
Qed.
Lemma rel_find t rows d w W r : URel t rows d w W -> (N.of_nat (length rows) + 1 < 2 ^ 63)%N -> r < length rows -> exists g, lookup (groups (base t)) r = Ok (Some (r / CAP)) /\ nth_error (groups (base t)) (r / CAP) = Some g /\ g_start g <= r < g_start g + g_count g.
Proof.
  intros U B H. pose proof (rel_groups _ _ _ _ _ U B) as GB. pose proof U as ((rows0 & I & LR) & S & R & _). destruct (lookup_in (base t) rows0 r) as (k & g & E1 & E2 & E3 & _); [apply I|exact GB|lia|].
  destruct (rel_start _ _ _ _ _ _ _ U E2) as (S1 & S2 & _). assert (K : r / CAP = k). { pose proof CAP_big. symmetry. apply (Nat.div_unique _ _ _ (r - g_start g)); lia. } rewrite K. exists g. auto.
Qed.
Lemma rel_nth t rows d w W k g r : URel t rows d w W -> nth_error (groups (base t)) k = Some g -> g_start g <= r < g_start g + g_count g ->
  nth_error rows r = nth_error (over1 (upds t k 0) (g_data g)) (r - g_start g).
Proof.
  intros U E H. pose proof (rel_inv _ _ _ _ _ U) as (_ & (L1 & L2 & L3 & L4) & _). assert (R : row_start (eff t) = 0) by apply U. rewrite R in *.
  assert (E' : nth_error (groups (eff t)) k = Some (effg (upds t k 0) g)). { change (groups (eff t)) with (effs (upds t) 0 (groups (base t))). rewrite effs_nth, E. reflexivity. }
  symmetry. rewrite <- L4. rewrite <- (Nat.sub_0_r r) at 2. apply (concat_nth _ 0 r k (effg (upds t k 0) g) L1); [|exact E'|exact H]. apply Forall_impl with (2 := L2). tauto.
Qed.
End Eff.

(** *** the steps *)
Section Steps.
Context {A : Type}.
Variable sort : list nat -> list nat.
Hypothesis HS : sorts sort.
Notation info := (list (nat * A)).
Implicit Types (g : group A) (gs : list (group A)) (t : tab A).

Lemma over1_app inf g g' e : gok inf g -> small g -> g_data g' = g_data g ++ e -> length (g_data g') <= CAP -> over1 (inf 0) (g_data g') = over1 (inf 0) (g_data g) ++ e.
Proof.
  intros G Sm E L. pose proof (over_len inf g G Sm) as OL. destruct G as [_ G]. destruct Sm as [S1 S2]. destruct (inf 0) as [i|]; [|exact E]. destruct G as (_ & G1 & G2). rewrite E in L. rewrite app_length in L.
  assert (G3 : Forall (fun p : nat * A => fst p < length (g_data g ++ e)) i) by (rewrite Forall_forall in *; intros p Hp; specialize (G2 p Hp); rewrite app_length; lia).
  apply nth_error_ext'. intros n. rewrite E. rewrite over1_nth by (auto; rewrite app_length; lia).
  destruct (lt_dec n (length (g_data g))) as [Q|Q].
  - rewrite (nth_error_app1 (over1 (Some i) (g_data g)) e) by (rewrite OL; exact Q). rewrite over1_nth by (auto; lia). rewrite nth_error_app1 by exact Q. reflexivity.
  - rewrite (nth_error_app2 (over1 (Some i) (g_data g)) e) by (rewrite OL; lia). rewrite OL. rewrite nth_error_app2 by lia. replace (find_row i n) with (@None A); [reflexivity|]. symmetry. apply find_row_none; [exact G1|]. intros H. apply in_map_iff in H. destruct H as (p & <- & H). rewrite Forall_forall in G2. specialize (G2 p H). lia.
Qed.

Lemma rel_insert t rows d w W chunks : URel t rows d w W -> exists t', u_insert t chunks = Ok t' /\ URel t' (rows ++ concat chunks) d w W.
Proof.
  intros U. pose proof U as ((rows0 & I & LR) & S & R & SH & (T1 & T2) & U1 & U2 & U3 & C). pose proof I as (Z & (L1 & L2 & L3 & L4) & D & GV).
  destruct (insert_inv (base t) chunks rows0 d w I) as (c' & rest & E & I' & S' & R'). unfold u_insert. rewrite E. cbn [rbind]. eexists. split; [reflexivity|].
  pose proof (insert_keeps _ _ _ _ Z L2 SH E) as SH'.
  destruct (insert_shape (base t) chunks Z L2) as (pre & g0 & news & rest' & c'' & GD & E' & TO & G' & _). rewrite E in E'. inversion E'; subst c'' rest'. clear E'.
  destruct TO as (l' & r & -> & [N1 [e N2]] & N3 & N4 & N5 & N6 & N7). cbn [map] in G'.
  set (u := upds t) in *.
  assert (SM' : Forall small (groups c')). { destruct I' as (_ & (_ & X & _) & _). rewrite S', S in X. exact X. }
  assert (K0 : gok (u (length pre)) g0 /\ small g0 /\ (forall o, o < g_count g0 -> (W (g_start g0 + o) <-> match u (length pre) 0 with Some i => In o (map fst i) | None => False end)) /\ concat (map g_data (effs u 0 (pre ++ [g0]))) = rows /\ (forall k, length pre < k -> forall v, u k v = None)
     /\ g_start g0 + g_count g0 = length rows).
  { destruct GD as [GD|(GD & -> & ->)].
    - assert (E0 : nth_error (groups (base t)) (length pre) = Some g0) by (rewrite GD; apply nth_mid). csplit.
      + apply T2, E0.
      + exact (proj1 (Forall_nth _ _) T1 _ _ E0).
      + apply U2, E0.
      + rewrite <- GD. exact C.
      + intros k Hk v. apply U1. rewrite GD, app_length. cbn. lia.
      + rewrite GD, map_app, concat_app in L4. apply (f_equal (@length A)) in L4. rewrite !app_length in L4. cbn [map concat] in L4. rewrite app_nil_r in L4. rewrite GD in L1. apply contiguous_app in L1. destruct L1 as [_ [L1 _]]. rewrite R in L1. assert (Fp : Forall (fun g => length (g_data g) = g_count g) (pre ++ [g0])) by (rewrite <- GD; eapply Forall_impl; [|exact T1]; unfold small; tauto).
        apply Forall_app in Fp. destruct Fp as [Fp Fq]. inversion Fq; subst. rewrite <- sum_data in L4 by exact Fp. lia.
    - rewrite GD in *. cbn in L4. subst rows0. destruct rows; [|discriminate LR]. assert (UN : forall k v, u k v = None) by (intros; apply U1; cbn; lia). csplit; cbn; try rewrite R; auto; try lia.
      + split; [intros; apply UN|]. rewrite UN. exact Logic.I.
      + split; cbn; lia.
      + rewrite UN. reflexivity. }
  destruct K0 as (K1 & K2 & K3 & K4 & K5 & K6).
  assert (LC : length (g_data l') <= CAP). { rewrite G' in SM'. apply Forall_app in SM'. destruct SM' as [_ SM']. inversion SM' as [|? ? [X1 X2] _]; subst. destruct (settle_fields l') as (_ & X3 & X4). rewrite X4 in X1. exact X1. }
  assert (GL : gok (u (length pre)) (settle l')). { destruct K1 as [K1 K1']. split; [exact K1|]. destruct (u (length pre) 0) as [i|]; [|exact Logic.I]. destruct K1' as (Y1 & Y2 & Y3). csplit; auto. destruct (settle_fields l') as (_ & -> & _). rewrite N2, app_length. eapply Forall_impl; [|exact Y3]. cbn. intros; lia. }
  assert (UN : forall j k, length pre < k -> u k j = None) by (intros; apply K5; assumption).
  assert (PRE : forall k g, k < length pre -> nth_error pre k = Some g -> nth_error (groups (base t)) k = Some g).
  { intros k g H E0. destruct GD as [->|(_ & -> & _)]; [rewrite nth_error_app1 by exact H; exact E0|destruct k; discriminate]. }
  unfold URel. cbn [base upds]. rewrite S', R'. fold u. csplit; auto.
  - exists (rows0 ++ concat chunks). split; [exact I'|]. rewrite !app_length. lia.
  - unfold tok. cbn [base upds]. fold u. split; [exact SM'|]. intros k g Ek. rewrite G' in Ek. destruct (lt_eq_lt_dec k (length pre)) as [[Q| ->]|Q].
    + rewrite nth_error_app1 in Ek by exact Q. apply T2, PRE; assumption.
    + rewrite nth_mid in Ek. inversion Ek; subst. exact GL.
    + split; [intros; apply UN; exact Q|]. rewrite UN by exact Q. exact Logic.I.
  - intros k Hk v. apply K5. rewrite G', app_length in Hk. cbn in Hk. lia.
  - intros k g Ek o Ho. rewrite G' in Ek. destruct (lt_eq_lt_dec k (length pre)) as [[Q| ->]|Q].
    + rewrite nth_error_app1 in Ek by exact Q. apply U2; [apply PRE; assumption|exact Ho].
    + rewrite nth_mid in Ek. inversion Ek; subst. clear Ek. destruct (settle_fields l') as (X1 & X2 & X3). rewrite X1, N1. rewrite X3 in Ho. destruct (lt_dec o (g_count g0)) as [Q|Q]; [apply K3; exact Q|]. split.
      * intros HW. apply U3 in HW. lia.
      * destruct K1 as [_ K1]. destruct (u (length pre) 0) as [i|]; [|tauto]. intros H. apply in_map_iff in H. destruct H as (p & <- & H). destruct K1 as (_ & _ & K1). rewrite Forall_forall in K1. specialize (K1 p H). destruct K2. lia.
    + rewrite UN by exact Q. split; [|tauto]. intros HW. apply U3 in HW. assert (length rows <= g_start g); [|lia].
      assert (CT : contiguous 0 (groups c')) by (destruct I' as (_ & (X & _) & _); rewrite R', R in X; exact X). rewrite G' in CT. apply contiguous_app in CT. destruct CT as [_ [CT1 CT2]]. rewrite nth_error_app2 in Ek by lia. destruct (k - length pre) as [|m] eqn:Em; [lia|]. cbn [nth_error] in Ek.
      pose proof (contiguous_bound _ _ _ _ CT2 Ek) as CB. destruct (settle_fields l') as (X1 & X2 & X3). rewrite X3 in CB. rewrite <- CT1, X1, N1, N2, app_length in CB. destruct K2. lia.
  - intros r0 H. rewrite app_length. apply U3 in H. lia.
  - cbn [eff with_groups groups base upds]. fold u. rewrite G', effs_app. cbn [effs]. rewrite map_app, concat_app. cbn [map concat effg g_data]. destruct (settle_fields l') as (_ & -> & _). rewrite Nat.add_0_l.
    rewrite (over1_app (u (length pre)) g0 l' e K1 K2 N2 LC).
    rewrite effs_app, map_app, concat_app in K4. cbn [effs map concat effg g_data Nat.add] in K4. rewrite app_nil_r in K4. rewrite <- K4. rewrite <- !app_assoc. do 2 f_equal.
    assert (Er : map g_data (effs u (Datatypes.S (length pre)) (map settle r)) = map g_data r).
    { clear - UN. assert (G : forall l k, length pre < k -> map g_data (effs u k (map settle l)) = map g_data l). { induction l as [|x l IH]; intros k H; cbn; [reflexivity|]. rewrite IH by lia. rewrite UN by exact H. reflexivity. } apply G. lia. }
    rewrite Er. cbn [map concat] in N7. rewrite N2, <- app_assoc in N7. apply app_inv_head in N7. exact N7.
Qed.

Lemma same_sc gs gs' : forall s, map g_data gs = map g_data gs' -> contiguous s gs -> contiguous s gs' -> Forall (fun g => length (g_data g) = g_count g) gs -> Forall (fun g => length (g_data g) = g_count g) gs' ->
  map (fun g => (g_start g, g_count g)) gs' = map (fun g => (g_start g, g_count g)) gs.
Proof.
  revert gs'. induction gs as [|g gs IH]; intros [|g' gs'] s E C C' F F'; try discriminate E; [reflexivity|]. cbn [map] in *. injection E as E1 E2. destruct C as [C1 C2], C' as [C1' C2']. apply Forall_cons_iff in F, F'. destruct F as [F1 F2], F' as [F1' F2']. assert (CE : g_count g' = g_count g) by congruence. f_equal; [congruence|]. apply (IH gs' (s + g_count g)); auto. rewrite CE in C2'. exact C2'.
Qed.
Lemma rel_delete t rows d w W ids t' o : URel t rows d w W -> (N.of_nat (length rows) + 1 < 2 ^ 63)%N -> (w + 1 + N.of_nat (length ids) < NOT_DELETED_ID)%N -> u_delete t ids = Ok (t', o) ->
  exists d', URel t' rows d' (w + N.of_nat (length ids)) W /\ effect_on (length rows) d ids o d'.
Proof.
  intros U B V E. pose proof (rel_groups _ _ _ _ _ U B) as GB. pose proof U as ((rows0 & I & LR) & S & R & SH & (T1 & T2) & U1 & U2 & U3 & C). unfold u_delete in E. destruct (delete_ids (base t) ids) as [[c1 o1]|] eqn:E1; [|discriminate]. cbn [rbind] in E. injection E as <- ->.
  destruct (del_sound (length ids) ids (base t) 0 rows0 d w c1 o I R GB V E1) as (d1 & o1 & I1 & EF & EO & S1 & R1 & DT). exists d1. rewrite LR in EF. assert (o = o1) by (rewrite EO; destruct o1; reflexivity). subst o1. split; [|exact EF].
  assert (SH1 : shape c1). { destruct SH as [SH|SH]; [left|right]. - rewrite SH in DT. cbn in DT. destruct (groups c1); [reflexivity|discriminate DT]. - rewrite S1. eapply fbl_data; [|exact SH]. congruence. }
  pose proof I as (_ & (L1 & L2 & _) & _). pose proof I1 as (_ & (L1' & L2' & _) & _). rewrite R in L1. rewrite R1 in L1'.
  assert (SC : map (fun g => (g_start g, g_count g)) (groups c1) = map (fun g => (g_start g, g_count g)) (groups (base t))).
  { apply (same_sc (groups (base t)) (groups c1) 0); auto; [eapply Forall_impl; [|exact L2]|eapply Forall_impl; [|exact L2']]; cbn; tauto. }
  assert (NT : forall k g', nth_error (groups c1) k = Some g' -> exists g, nth_error (groups (base t)) k = Some g /\ g_start g' = g_start g /\ g_count g' = g_count g /\ g_data g' = g_data g).
  { intros k g' E'. apply (f_equal (fun l => nth_error l k)) in SC, DT. rewrite !nth_error_map, E' in SC, DT. destruct (nth_error (groups (base t)) k) as [g|]; [|discriminate]. cbn in SC, DT. exists g. split; [reflexivity|]. split; [congruence|]. split; congruence. }
  assert (LG : length (groups c1) = length (groups (base t))) by (rewrite <- (map_length g_data), DT, map_length; reflexivity).
  unfold URel. cbn [base upds]. csplit; auto; try congruence.
  - exists rows0. auto.
  - split; cbn [base upds].
    + eapply Forall_impl; [|exact L2']. rewrite S1, S. unfold small. tauto.
    + intros k g' E'. destruct (NT k g' E') as (g & Eg & _ & _ & X). specialize (T2 k g Eg). unfold gok in *. rewrite X. exact T2.
  - intros k Hk v. apply U1. lia.
  - intros k g' E' o' Ho'. destruct (NT k g' E') as (g & Eg & X1 & X2 & _). rewrite X1. apply U2; [exact Eg|lia].
  - rewrite <- C. cbn [eff with_groups groups base upds]. f_equal. clear - DT. revert DT. generalize 0. generalize (groups c1). induction (groups (base t)) as [|g gs IH]; intros [|g' gs'] k DT; try discriminate; [reflexivity|]. cbn [map] in DT. injection DT as D1 D2. cbn [effs map effg g_data]. rewrite D1, (IH gs' (Datatypes.S k) D2). reflexivity.
Qed.

(** updating *)
Lemma last_write_in (w : info) r a : NoDup (map fst w) -> last_write w r = Some a <-> In (r, a) w.
Proof.
  induction w as [|[i b] w IH]; intros N; cbn; [split; [discriminate|tauto]|]. inversion N as [|? ? N1 N2]; subst. specialize (IH N2). destruct (last_write w r) as [c|] eqn:E.
  - split; [intros [= ->]; right; apply IH; reflexivity|]. intros [H|H]; [|apply IH in H; exact H]. inversion H; subst. exfalso. apply N1. assert (G : forall (l : info) (x : nat) y, last_write l x = Some y -> In x (map fst l)).
    { clear. induction l as [|[j z] l IH]; intros x y H; cbn in *; [discriminate|]. destruct (last_write l x) eqn:Q; [right; eapply IH; eassumption|]. destruct (j =? x) eqn:Q2; [left; lia|discriminate]. } eapply G, E.
  - destruct (i =? r) eqn:Q.
    + assert (i = r) by lia. subst. split; [intros [= ->]; auto|]. intros [H|H]; [inversion H; reflexivity|]. apply IH in H. discriminate.
    + split; [discriminate|]. intros [H|H]; [inversion H; subst; lia|]. apply IH in H. discriminate.
Qed.
Lemma last_write_none (w : info) r : last_write w r = None <-> ~ In r (map fst w).
Proof.
  induction w as [|[i b] w IH]; cbn; [tauto|]. destruct (last_write w r) eqn:E.
  - split; [discriminate|]. intros H. exfalso. apply H. right. destruct (in_dec Nat.eq_dec r (map fst w)) as [Q|Q]; [exact Q|]. apply IH in Q. discriminate.
  - destruct (i =? r) eqn:Q; [split; [discriminate|]; intros H; exfalso; apply H; left; lia|]. split; [|reflexivity]. intros _ [H|H]; [lia|]. apply IH in H; auto.
Qed.
Lemma last_write_app (a b : info) r : last_write (a ++ b) r = match last_write b r with Some x => Some x | None => last_write a r end.
Proof. induction a as [|[i x] a IH]; cbn; [destruct (last_write b r); reflexivity|]. rewrite IH. destruct (last_write b r); reflexivity. Qed.
Lemma written_app (rows : list A) a r1 b r2 : written rows a r1 -> written r1 b r2 -> written rows (a ++ b) r2.
Proof.
  intros (A1 & A2 & A3) (B1 & B2 & B3). split; [congruence|]. split.
  - intros i H. rewrite map_app in H. apply in_app_or in H. destruct H as [H|H]; [auto|]. apply B2 in H. lia.
  - intros r H. rewrite B3 by lia. rewrite last_write_app. destruct (last_write b r); [reflexivity|]. apply A3. lia.
Qed.

Lemma seg_ok (inf : nat -> option info) g l inf' : gok inf g -> small g -> l <> [] -> NoDup (map fst l) -> Forall (fun p => g_start g <= fst p < g_start g + g_count g) l ->
  (match inf 0 with Some olds => merge_new (flat_map (pick l (g_start g)) (sort_index sort (map fst l))) olds | None => Ok (flat_map (pick l (g_start g)) (sort_index sort (map fst l))) end = Ok inf') ->
  gok (fun w => if w =? 0 then Some inf' else inf w) g /\
  (forall o a, In (o, a) inf' <-> In (g_start g + o, a) l \/ (match inf 0 with Some olds => In (o, a) olds | None => False end /\ ~ In (g_start g + o) (map fst l))).
Proof.
  intros [G1 G2] [S1 S2] NE ND F E. destruct (news_ok sort HS l (g_start g) ND) as (N1 & N2 & N3); [eapply Forall_impl; [|exact F]; cbn; intros; lia|]. cbn zeta in *. set (news := flat_map _ _) in *.
  assert (NF : forall o, In o (map fst news) <-> In (g_start g + o) (map fst l)).
  { intros o. rewrite !in_map_iff. split; intros ([x a] & X1 & X2); cbn in X1; subst.
    - exists (g_start g + o, a). split; [reflexivity|]. apply N2, X2.
    - exists (o, a). split; [reflexivity|]. apply N2. exact X2. }
  assert (NN : news <> []). { destruct l as [|[id a] l]; [congruence|]. intros X. assert (Y : In (id - g_start g, a) news); [|rewrite X in Y; destruct Y]. apply N2. inversion F as [|? ? F1 _]; subst. cbn in F1. replace (g_start g + (id - g_start g)) with id by lia. left. reflexivity. }
  assert (NB : Forall (fun p : nat * A => fst p < length (g_data g)) news). { rewrite Forall_forall in F |- *. intros [o a] H. apply N2 in H. specialize (F _ H). cbn in *. lia. }
  destruct (inf 0) as [olds|].
  - destruct G2 as (G2 & G3 & G4). destruct (merge_sound news olds inf' N1 G3 E) as [M1 M2]. split.
    + split; [intros v H; cbn; replace (v =? 0) with false by lia; auto|]. cbn. csplit; auto.
      * destruct news as [|[o a] news]; [congruence|]. intros ->. destruct (proj2 (M2 o a)). left. left. reflexivity.
      * rewrite Forall_forall in *. intros [o a] H. apply M2 in H. destruct H as [H|[H _]]; [apply (NB _ H)|apply (G4 _ H)].
    + intros o a. rewrite M2, N2, NF. tauto.
  - inversion E; subst inf'. split.
    + split; [intros v H; cbn; replace (v =? 0) with false by lia; auto|]. cbn. auto.
    + intros o a. rewrite N2. tauto.
Qed.

Lemma rel_seg t rows d w W k g l inf' : URel t rows d w W -> nth_error (groups (base t)) k = Some g -> l <> [] -> NoDup (map fst l) -> Forall (fun p => g_start g <= fst p < g_start g + g_count g) l ->
  (match upds t k 0 with Some olds => merge_new (flat_map (pick l (g_start g)) (sort_index sort (map fst l))) olds | None => Ok (flat_map (pick l (g_start g)) (sort_index sort (map fst l))) end = Ok inf') ->
  exists rows', written rows l rows' /\ URel (set_upds t k (fun w => if w =? 0 then Some inf' else upds t k w)) rows' d w (fun r => W r \/ In r (map fst l)).
Proof.
  intros U Ek NE ND F E. pose proof U as ((rows0 & I & LR) & S & R & SH & (T1 & T2) & U1 & U2 & U3 & C). pose proof (proj1 (Forall_nth _ _) T1 k g Ek) as Sm.
  destruct (seg_ok (upds t k) g l inf' (T2 k g Ek) Sm NE ND F E) as [G I2]. set (t' := set_upds t k _).
  assert (KL : k < length (groups (base t))) by (apply nth_error_Some; congruence).
  assert (UK : upds t' k = fun w => if w =? 0 then Some inf' else upds t k w) by (unfold t', set_upds; cbn [upds]; rewrite Nat.eqb_refl; reflexivity).
  assert (UO : forall j, j <> k -> upds t' j = upds t j) by (intros j H; unfold t', set_upds; cbn [upds]; replace (j =? k) with false by lia; reflexivity).
  assert (U' : URel t' (concat (map g_data (groups (eff t')))) d w (fun r => W r \/ In r (map fst l))).
  { assert (T' : tok t'). { split; [exact T1|]. intros j h Ej. destruct (Nat.eq_dec j k) as [->|Q]; [|rewrite UO by exact Q; apply T2; exact Ej]. rewrite UK. assert (h = g) by (change (base t') with (base t) in Ej; congruence). subst h. exact G. }
    assert (LN : length (concat (map g_data (groups (eff t')))) = length rows).
    { rewrite <- LR. destruct I as (_ & (_ & _ & _ & L4) & _). rewrite <- L4. clear - T'. destruct T' as [T1 T2]. change (groups (eff t')) with (effs (upds t') 0 (groups (base t))). change (base t') with (base t) in *. revert T1 T2. generalize (upds t'). intros u. assert (Q : forall gs k, Forall small gs -> (forall j g, nth_error gs j = Some g -> gok (u (k + j)) g) -> length (concat (map g_data (effs u k gs))) = length (concat (map g_data gs))).
      { induction gs as [|x gs IH]; intros m F H; cbn [effs map concat]; [reflexivity|]. inversion F; subst. rewrite !app_length. cbn [effg g_data]. rewrite (over_len (u m) x); [|specialize (H 0 x eq_refl); rewrite Nat.add_0_r in H; exact H|assumption]. f_equal. apply IH; [assumption|]. intros j y Hy. replace (Datatypes.S m + j) with (m + Datatypes.S j) by lia. apply (H (Datatypes.S j) y Hy). }
      intros. apply Q; assumption. }
    unfold URel. change (base t') with (base t). csplit; auto.
    - exists rows0. split; [exact I|]. congruence.
    - intros j Hj v. rewrite UO by lia. apply U1. exact Hj.
    - intros j h Ej o Ho. destruct (Nat.eq_dec j k) as [->|Q].
      + assert (h = g) by congruence. subst h. rewrite UK. cbn [Nat.eqb]. rewrite (U2 k g Ek o Ho). split.
        * intros [H|H].
          -- destruct (in_dec Nat.eq_dec (g_start g + o) (map fst l)) as [Q|Q].
             ++ apply in_map_iff in Q. destruct Q as ([x a] & X1 & X2). cbn in X1. subst x. apply in_map_iff. exists (o, a). split; [reflexivity|]. apply I2. auto.
             ++ destruct (upds t k 0) as [olds|]; [|destruct H]. apply in_map_iff in H. destruct H as ([x a] & X1 & X2). cbn in X1. subst x. apply in_map_iff. exists (o, a). split; [reflexivity|]. apply I2. auto.
          -- apply in_map_iff in H. destruct H as ([x a] & X1 & X2). cbn in X1. subst x. apply in_map_iff. exists (o, a). split; [reflexivity|]. apply I2. auto.
        * intros H. apply in_map_iff in H. destruct H as ([x a] & X1 & X2). cbn in X1. subst x. apply I2 in X2. destruct X2 as [X2|[X2 _]]; [right; apply in_map_iff; exists (g_start g + o, a); auto|left]. destruct (upds t k 0) as [olds|]; [|exact X2]. apply in_map_iff. exists (o, a). auto.
      + rewrite UO by exact Q. rewrite <- (U2 j h Ej o Ho). split; [|auto]. intros [H|H]; [exact H|]. exfalso. apply in_map_iff in H. destruct H as (p & X1 & X2). rewrite Forall_forall in F. specialize (F p X2).
        apply Q. apply (lookup_unique (base t) rows0 (g_start h + o) k g (proj1 (proj2 I)) Ek ltac:(lia) j h Ej). lia.
    - intros r [H|H]; [rewrite LN; auto|]. apply in_map_iff in H. destruct H as (p & <- & H). rewrite Forall_forall in F. specialize (F p H). destruct (rel_start _ _ _ _ _ _ _ U Ek) as (_ & _ & X & _). lia. }
  exists (concat (map g_data (groups (eff t')))). split; [|exact U'].
  assert (LN : length (concat (map g_data (groups (eff t')))) = length rows). { destruct U' as ((r1 & I1 & L1) & _). destruct I as (_ & (_ & _ & X & _) & _). destruct I1 as (_ & (_ & _ & Y & _) & _). change (base t') with (base t) in Y. congruence. }
  split; [exact LN|]. split.
  - intros i H. apply in_map_iff in H. destruct H as (p & <- & H). rewrite Forall_forall in F. specialize (F p H). destruct (rel_start _ _ _ _ _ _ _ U Ek) as (_ & _ & X & _). lia.
  - intros r Hr. assert (FD : exists j h, nth_error (groups (base t)) j = Some h /\ g_start h <= r < g_start h + g_count h).
    { pose proof I as (_ & L & _). pose proof (layout_sum _ _ L) as SM. destruct L as (L1 & _). rewrite R in L1. destruct (contiguous_find _ 0 r L1) as (j & h & X1 & X2); [lia|]. exists j, h. auto. }
    destruct FD as (j & h & Ej & Hj). rewrite (rel_nth _ _ _ _ _ j h r U' Ej Hj), (rel_nth _ _ _ _ _ j h r U Ej Hj). destruct (Nat.eq_dec j k) as [->|Q].
    + assert (h = g) by congruence. subst h. rewrite UK. cbn [Nat.eqb]. destruct G as [_ G]. cbn in G. destruct G as (_ & G1 & G2). pose proof (T2 k g Ek) as [_ T]. destruct Sm as [S1 S2].
      rewrite over1_nth by (auto; lia). set (o := r - g_start g). assert (RO : r = g_start g + o) by lia. destruct (last_write l r) as [a|] eqn:LW.
      * apply last_write_in in LW; [|exact ND]. rewrite RO in LW. assert (X : find_row inf' o = Some a) by (apply find_row_in; [exact G1|apply I2; auto]). rewrite X. reflexivity.
      * apply last_write_none in LW. rewrite RO in LW. destruct (upds t k 0) as [olds|].
        -- destruct T as (_ & T3 & T4). rewrite over1_nth by (auto; lia). destruct (find_row olds o) as [b|] eqn:Fo.
           ++ apply find_row_in in Fo; [|exact T3]. assert (X : find_row inf' o = Some b) by (apply find_row_in; [exact G1|apply I2; auto]). rewrite X. reflexivity.
           ++ apply find_row_none in Fo; [|exact T3]. assert (X : find_row inf' o = None). { apply find_row_none; [exact G1|]. intros H. apply in_map_iff in H. destruct H as ([x b] & X1 & X2). cbn in X1. subst x. apply I2 in X2. destruct X2 as [X2|[X2 _]]; [apply LW|apply Fo]; apply in_map_iff; eexists; split; [|eassumption| |eassumption]; reflexivity. } rewrite X. reflexivity.
        -- assert (X : find_row inf' o = None). { apply find_row_none; [exact G1|]. intros H. apply in_map_iff in H. destruct H as ([x b] & X1 & X2). cbn in X1. subst x. apply I2 in X2. destruct X2 as [X2|[[] _]]. apply LW. apply in_map_iff. eexists. split; [|eassumption]. reflexivity. } rewrite X. reflexivity.
    + rewrite UO by exact Q. replace (last_write l r) with (@None A); [reflexivity|]. symmetry. apply last_write_none. intros H. apply in_map_iff in H. destruct H as (p & X1 & X2). rewrite Forall_forall in F. specialize (F p X2).
      apply Q. apply (lookup_unique (base t) rows0 r k g (proj1 (proj2 I)) Ek ltac:(lia) j h Ej). lia.
Qed.

Lemma run_in_spec lo hi (l : info) : forall a b, run_in lo hi l = (a, b) -> l = a ++ b /\ Forall (fun p => lo <= fst p < hi) a /\ match b with [] => True | p :: _ => ~ (lo <= fst p < hi) end.
Proof.
  induction l as [|[i x] l IH]; intros a b E; cbn [run_in fst] in E; [inversion E; subst; auto|]. destruct ((lo <=? i) && (i <? hi)) eqn:Q; [|inversion E; subst; split; [reflexivity|]; split; [constructor|]; cbn; lia].
  destruct (run_in lo hi l) as [a' b'] eqn:E'. inversion E; subst. destruct (IH _ _ eq_refl) as (-> & F & T). split; [reflexivity|]. split; [|exact T]. constructor; [cbn; lia|exact F].
Qed.
Lemma sort_index_ne ids : ids <> [] -> NoDup ids -> exists i r, sort_index sort ids = i :: r /\ i < length ids.
Proof.
  intros NE ND. destruct (sort_index_ok sort HS ids ND) as [P _]. destruct (sort_index sort ids) as [|i r]; [apply Permutation_length in P; rewrite seq_length in P; destruct ids; [congruence|discriminate P]|]. exists i, r. split; [reflexivity|].
  assert (H : In i (seq 0 (length ids))) by (apply (Permutation_in _ P); left; reflexivity). apply in_seq in H. lia.
Qed.
Lemma seg_update_eq (inf : nat -> option info) g l : l <> [] -> NoDup (map fst l) -> Forall (fun p => g_start g <= fst p < g_start g + CAP) l ->
  seg_update sort inf (g_start g) l = do i' <- match inf 0 with Some olds => merge_new (flat_map (pick l (g_start g)) (sort_index sort (map fst l))) olds | None => Ok (flat_map (pick l (g_start g)) (sort_index sort (map fst l))) end; Ok (fun w => if w =? 0 then Some i' else inf w).
Proof.
  intros NE ND F. unfold seg_update. destruct (sort_index_ne (map fst l)) as (i & r & E & H); [destruct l; [congruence|discriminate]|exact ND|]. rewrite E.
  assert (K : (key (map fst l) i - g_start g) / CAP = 0). { apply Nat.div_small. rewrite Forall_forall in F. rewrite map_length in H. assert (In (key (map fst l) i) (map fst l)) by (apply nth_In; rewrite map_length; exact H). apply in_map_iff in H0. destruct H0 as (p & <- & Hp). specialize (F p Hp). pose proof CAP_big. lia. }
  cbv zeta. rewrite K. cbn [Nat.mul]. rewrite Nat.add_0_r. reflexivity.
Qed.

Lemma upd_sound : forall fuel l t rows d w W t', URel t rows d w W -> (N.of_nat (length rows) + 1 < 2 ^ 63)%N -> NoDup (map fst l) -> upd_loop sort fuel t l = Ok t' ->
  exists rows', written rows l rows' /\ URel t' rows' d w (fun r => W r \/ In r (map fst l)).
Proof.
  induction fuel as [|fuel IH]; intros l t rows d w W t' U B ND E.
  { destruct l; [|discriminate E]. inversion E; subst. exists rows. split; [split; [reflexivity|]; split; [intros ? []|reflexivity]|]. assert (Q : forall P Q : nat -> Prop, (forall r, P r <-> Q r) -> URel t' rows d w P -> URel t' rows d w Q).
    { clear. intros P Q H (X1 & X2 & X3 & X4 & X5 & X6 & X7 & X8 & X9). unfold URel. csplit; auto. - intros. rewrite <- H. apply X7; assumption. - intros r Hr. apply X8, H, Hr. } eapply Q; [|exact U]. cbn. tauto. }
  destruct l as [|[id a] l].
  { inversion E; subst. exists rows. split; [split; [reflexivity|]; split; [intros ? []|reflexivity]|]. assert (Q : forall P Q : nat -> Prop, (forall r, P r <-> Q r) -> URel t' rows d w P -> URel t' rows d w Q).
    { clear. intros P Q H (X1 & X2 & X3 & X4 & X5 & X6 & X7 & X8 & X9). unfold URel. csplit; auto. - intros. rewrite <- H. apply X7; assumption. - intros r Hr. apply X8, H, Hr. } eapply Q; [|exact U]. cbn. tauto. }
  cbn [upd_loop] in E. destruct (lt_dec id (length rows)) as [Q|Q].
  2: { destruct U as ((rows0 & I & LR) & S & R & SH & X). rewrite (lookup_out (base t) rows0 id (proj1 (proj2 I))) in E; [discriminate E| |lia]. apply (shape_groups _ _ _ _ I SH). lia. }
  destruct (rel_find _ _ _ _ _ id U B Q) as (g & E1 & E2 & E3). rewrite E1 in E. cbn [rbind] in E. rewrite E2 in E. destruct (rel_start _ _ _ _ _ _ _ U E2) as (G1 & G2 & G3 & G4).
  assert (K : (id - g_start g) / CAP = 0) by (apply Nat.div_small; lia). rewrite K in E. cbn [Nat.mul] in E. rewrite Nat.add_0_r in E. replace (Nat.min (g_start g + CAP) (g_start g + g_count g)) with (g_start g + g_count g) in E by lia.
  destruct (run_in (g_start g) (g_start g + g_count g) l) as [mine others] eqn:ER. destruct (run_in_spec _ _ _ _ _ ER) as (-> & FR & _).
  assert (FA : Forall (fun p : nat * A => g_start g <= fst p < g_start g + g_count g) ((id, a) :: mine)) by (constructor; [exact E3|exact FR]).
  change ((id, a) :: mine ++ others) with (((id, a) :: mine) ++ others) in *. rewrite map_app in ND. pose proof (NoDup_app_parts _ _ ND) as (ND1 & ND2 & _).
  rewrite seg_update_eq in E; [|discriminate|exact ND1|eapply Forall_impl; [|exact FA]; cbn; intros; lia].
  match type of E with (do _ <- (do i' <- ?m; _); _) = _ => destruct m as [inf'|] eqn:EM; [|discriminate E] end. cbn [rbind] in E.
  destruct (rel_seg t rows d w W (id / CAP) g ((id, a) :: mine) inf' U E2 ltac:(discriminate) ND1 FA EM) as (rows1 & W1 & U1).
  destruct (IH others _ rows1 d w _ t' U1) as (rows2 & W2 & U2); [destruct W1 as (-> & _); exact B|exact ND2|exact E|].
  exists rows2. split; [eapply written_app; eassumption|]. clear - U2. assert (Q : forall P Q : nat -> Prop, (forall r, P r <-> Q r) -> URel t' rows2 d w P -> URel t' rows2 d w Q).
  { clear. intros P Q H (X1 & X2 & X3 & X4 & X5 & X6 & X7 & X8 & X9). unfold URel. csplit; auto. - intros. rewrite <- H. apply X7; assumption. - intros r Hr. apply X8, H, Hr. }
  eapply Q; [|exact U2]. intros r. cbn beta. rewrite map_app, in_app_iff. tauto.
Qed.
End Steps.

(** *** sequences *)
Section Acts.
Context {A : Type}.
Variable sort : list nat -> list nat.
Hypothesis HS : sorts sort.
Notation info := (list (nat * A)).
Implicit Types (g : group A) (gs : list (group A)) (t : tab A).

Lemma rel_ext t rows d w (P Q : nat -> Prop) : (forall r, P r <-> Q r) -> URel t rows d w P -> URel t rows d w Q.
Proof. intros H (X1 & X2 & X3 & X4 & X5 & X6 & X7 & X8 & X9). unfold URel. csplit; auto. - intros. rewrite <- H. apply X7; assumption. - intros r Hr. apply X8, H, Hr. Qed.

Lemma increasing_above (i : nat) l : increasing (i :: l) = true -> Forall (lt i) l.
Proof.
  revert i. induction l as [|j l IH]; intros i H; [constructor|]. change ((i <? j) && increasing (j :: l) = true) in H. apply andb_true_iff in H. destruct H as [H1 H2]. constructor; [lia|]. specialize (IH j H2). eapply Forall_impl; [|exact IH]. cbn. intros; lia.
Qed.
Lemma increasing_app l1 l2 : increasing (l1 ++ l2) = true -> increasing l2 = true /\ forall x y, In x l1 -> In y l2 -> x < y.
Proof.
  induction l1 as [|i l1 IH]; cbn [app]; intros H; [split; [exact H|intros ? ? []]|]. pose proof (increasing_above _ _ H) as F. assert (H' : increasing (l1 ++ l2) = true). { destruct (l1 ++ l2) as [|j l]; [reflexivity|]. change ((i <? j) && increasing (j :: l) = true) in H. apply andb_true_iff in H. apply H. }
  destruct (IH H') as [I1 I2]. split; [exact I1|]. intros x y [->|Hx] Hy; [|apply I2; assumption]. rewrite Forall_forall in F. apply F, in_or_app. auto.
Qed.
Lemma increasing_nodup l : increasing l = true -> NoDup l.
Proof.
  induction l as [|i l IH]; intros H; constructor.
  - intros Hi. pose proof (increasing_above _ _ H) as F. rewrite Forall_forall in F. specialize (F i Hi). lia.
  - apply IH. apply (increasing_app [i] l). exact H.
Qed.

Lemma upd_total : forall fuel (l : info) t rows d w W, URel t rows d w W -> (N.of_nat (length rows) + 1 < 2 ^ 63)%N -> length l <= fuel -> increasing (map fst l) = true -> Forall (fun p => fst p < length rows) l ->
  (forall r, In r (map fst l) -> (exists s, W s /\ together s r) -> exists s, W s /\ together s r /\ r <= s) -> exists t', upd_loop sort fuel t l = Ok t'.
Proof.
  induction fuel as [|fuel IH]; intros l t rows d w W U B LF INC EX NB; [destruct l; [exists t; reflexivity|cbn in LF; lia]|].
  destruct l as [|[id a] l]; [exists t; reflexivity|]. cbn [upd_loop]. apply Forall_cons_iff in EX. destruct EX as [EX1 EX2]. cbn [fst] in EX1.
  destruct (rel_find _ _ _ _ _ id U B EX1) as (g & E1 & E2 & E3). rewrite E1. cbn [rbind]. rewrite E2. destruct (rel_start _ _ _ _ _ _ _ U E2) as (G1 & G2 & G3 & G4).
  assert (K : (id - g_start g) / CAP = 0) by (apply Nat.div_small; lia). rewrite K. cbn [Nat.mul]. rewrite Nat.add_0_r. replace (Nat.min (g_start g + CAP) (g_start g + g_count g)) with (g_start g + g_count g) by lia.
  destruct (run_in (g_start g) (g_start g + g_count g) l) as [mine others] eqn:ER. destruct (run_in_spec _ _ _ _ _ ER) as (-> & FR & TO).
  assert (FA : Forall (fun p : nat * A => g_start g <= fst p < g_start g + g_count g) ((id, a) :: mine)) by (constructor; [exact E3|exact FR]).
  change ((id, a) :: mine ++ others) with (((id, a) :: mine) ++ others) in *. rewrite map_app in INC. pose proof (increasing_nodup _ INC) as ND. pose proof (NoDup_app_parts _ _ ND) as (ND1 & ND2 & _). destruct (increasing_app _ _ INC) as [INC2 LT].
  rewrite seg_update_eq; [|exact HS|discriminate|exact ND1|eapply Forall_impl; [|exact FA]; cbn; intros; lia].
  assert (TG : forall o, o < g_count g -> (g_start g + o) / CAP = id / CAP). { intros o Ho. pose proof CAP_big. symmetry. rewrite G1. apply (Nat.div_unique _ _ _ o); lia. }
  assert (exists inf', match upds t (id / CAP) 0 with Some olds => merge_new (flat_map (pick ((id, a) :: mine) (g_start g)) (sort_index sort (map fst ((id, a) :: mine)))) olds | None => Ok (flat_map (pick ((id, a) :: mine) (g_start g)) (sort_index sort (map fst ((id, a) :: mine)))) end = Ok inf') as [inf' EM].
  { pose proof U as (X1 & X2 & X3 & X4 & [X5 X6] & X7 & X8 & X9 & _). specialize (X6 _ _ E2). specialize (X8 _ _ E2). destruct (upds t (id / CAP) 0) as [olds|] eqn:EU; [|eexists; reflexivity]. destruct X6 as [_ X6]. rewrite EU in X6. destruct X6 as (Y1 & Y2 & Y3).
    destruct (news_ok sort HS ((id, a) :: mine) (g_start g) ND1) as (N1 & N2 & N3); [eapply Forall_impl; [|exact FA]; cbn; intros; lia|]. cbn zeta in *. apply merge_total; [exact N1|exact Y2|]. rewrite Forall_forall. intros [o b] Ho. cbn [fst]. apply N2 in Ho.
    assert (OB : o < g_count g) by (rewrite Forall_forall in FA; specialize (FA _ Ho); cbn [fst] in FA; lia).
    assert (IN : In (g_start g + o) (map fst (((id, a) :: mine) ++ others))). { rewrite map_app. apply in_or_app. left. apply in_map_iff. exists (g_start g + o, b). auto. }
    destruct (NB _ IN) as (s & S1 & S2 & S3).
    - destruct olds as [|[j x] olds]; [congruence|]. rewrite Forall_forall in Y3. specialize (Y3 _ (or_introl eq_refl)). cbn [fst] in Y3. exists (g_start g + j). split; [apply X8; [lia|]; left; reflexivity|]. unfold together. rewrite !TG by lia. reflexivity.
    - unfold together in S2. rewrite TG in S2 by exact OB. assert (exists q, s = g_start g + q /\ q < CAP) as (q & -> & Q2). { exists (s mod CAP). pose proof (Nat.div_mod s CAP). pose proof CAP_big. split; [rewrite G1; rewrite <- S2; lia|apply Nat.mod_upper_bound; lia]. }
      assert (QB : q < g_count g). { destruct (rel_find _ _ _ _ _ _ U B (X9 _ S1)) as (h & _ & H1 & H2). rewrite S2 in H1. assert (h = g) by congruence. subst h. lia. }
      apply X8 in S1; [|exact QB]. apply in_map_iff in S1. destruct S1 as (p & <- & Hp). exists p. split; [exact Hp|lia]. }
  rewrite EM. cbn [rbind]. destruct (rel_seg sort HS t rows d w W (id / CAP) g ((id, a) :: mine) inf' U E2 ltac:(discriminate) ND1 FA EM) as (rows1 & W1 & U1).
  apply (IH others _ rows1 d w _ U1).
  - destruct W1 as (-> & _). exact B.
  - cbn [length] in LF. rewrite app_length in LF. cbn [length] in LF. lia.
  - exact INC2.
  - destruct W1 as (-> & _). apply Forall_app in EX2. apply EX2.
  - intros r Hr (s & [S1|S1] & S2).
    + destruct (NB r) as (q & Q1 & Q2 & Q3); [rewrite map_app; apply in_or_app; auto|exists s; auto|]. exists q. auto.
    + exfalso. apply in_map_iff in S1. destruct S1 as (p & <- & Hp). rewrite Forall_forall in FA. specialize (FA p Hp). unfold together in S2. replace (fst p) with (g_start g + (fst p - g_start g)) in S2 by lia. rewrite TG in S2 by lia.
      assert (RB : r < length rows). { apply Forall_app in EX2. destruct EX2 as [_ EX2]. rewrite Forall_forall in EX2. apply in_map_iff in Hr. destruct Hr as (z & <- & Hz). apply EX2, Hz. }
      destruct (rel_find _ _ _ _ _ _ U B RB) as (h & _ & H1 & H2). rewrite <- S2 in H1. assert (h = g) by congruence. subst h.
      destruct others as [|[j b] others]; [destruct Hr|]. cbn [fst] in TO. pose proof (LT id j (or_introl eq_refl) (or_introl eq_refl)). change (map fst ((j, b) :: others)) with (j :: map fst others) in Hr, INC2. destruct Hr as [Hr|Hr]; [lia|]. apply increasing_above in INC2. rewrite Forall_forall in INC2. specialize (INC2 _ Hr). lia.
Qed.

Lemma upd_beyond t rows d w W r a : URel t rows d w W -> (N.of_nat (length rows) + 1 < 2 ^ 63)%N -> r < length rows -> (exists s, W s /\ together s r) -> (forall s, W s -> together s r -> s < r) -> update_rows sort t [(r, a)] = Err UB.
Proof.
  intros U B RB (s & S1 & S2) NB. unfold update_rows. cbn [length upd_loop].
  destruct (rel_find _ _ _ _ _ r U B RB) as (g & E1 & E2 & E3). rewrite E1. cbn [rbind]. rewrite E2. destruct (rel_start _ _ _ _ _ _ _ U E2) as (G1 & G2 & G3 & G4). cbn [run_in].
  rewrite seg_update_eq; [|exact HS|discriminate|repeat constructor; intros []|constructor; [cbn; lia|constructor]].
  assert (TG : forall o, o < g_count g -> (g_start g + o) / CAP = r / CAP). { intros o Ho. pose proof CAP_big. symmetry. rewrite G1. apply (Nat.div_unique _ _ _ o); lia. }
  pose proof U as (X1 & X2 & X3 & X4 & [X5 X6] & X7 & X8 & X9 & _). specialize (X6 _ _ E2). specialize (X8 _ _ E2). destruct (rel_find _ _ _ _ _ _ U B (X9 _ S1)) as (h & _ & H1 & H2). unfold together in S2. rewrite S2 in H1. assert (h = g) by congruence. subst h.
  assert (IN : match upds t (r / CAP) 0 with Some i => In (s - g_start g) (map fst i) | None => False end) by (apply X8; [lia|]; replace (g_start g + (s - g_start g)) with s by lia; exact S1).
  destruct (upds t (r / CAP) 0) as [olds|] eqn:EU; [|destruct IN]. destruct X6 as [_ X6]. rewrite EU in X6. destruct X6 as (Y1 & Y2 & Y3).
  change (sort_index sort (map fst [(r, a)])) with [0]. cbn [flat_map pick nth_error app]. rewrite merge_beyond; [reflexivity|].
  rewrite Forall_forall in Y3 |- *. intros p Hp. specialize (Y3 p Hp). assert (PW : W (g_start g + fst p)) by (apply X8; [lia|]; apply in_map; exact Hp). specialize (NB _ PW). unfold together in NB. rewrite TG in NB by lia. specialize (NB eq_refl). lia.
Qed.

Definition sizes (l : list (uact A)) : nat := list_sum (map size_of l).
Lemma sizes_cons a l : sizes (a :: l) = size_of a + sizes l. Proof. reflexivity. Qed.
Lemma updated_cons a (l : list (uact A)) r : updated (a :: l) r <-> updated [a] r \/ updated l r.
Proof.
  unfold updated. split.
  - intros (v & [H|H] & K); [left|right]; exists v; cbn; auto.
  - intros [(v & [H|[]] & K)|(v & H & K)]; exists v; cbn; auto.
Qed.
Lemma updated_nil r : ~ updated (@nil (uact A)) r. Proof. intros (v & [] & _). Qed.
Lemma updated_ins chunks r : ~ updated [@UIns A chunks] r. Proof. intros (v & [H|[]] & _). discriminate. Qed.
Lemma updated_del ids r : ~ updated [@UDel A ids] r. Proof. intros (v & [H|[]] & _). discriminate. Qed.
Lemma uacts_sound : forall l t rows d w W t' os, URel t rows d w W -> (N.of_nat (length rows + sizes l) + 1 < 2 ^ 63)%N -> (w + 1 + N.of_nat (sizes l) < NOT_DELETED_ID)%N -> once l -> uacts sort t l = Ok (t', os) ->
  exists rows' d' w', uhistory rows d l os rows' d' /\ URel t' rows' d' w' (fun r => W r \/ updated l r) /\ (w' <= w + N.of_nat (sizes l))%N /\ length rows' <= length rows + sizes l.
Proof.
  induction l as [|a l IH]; intros t rows d w W t' os U B1 B2 O E.
  { cbn in E. injection E as -> <-. exists rows, d, w. split; [constructor|]. split; [eapply rel_ext; [|exact U]; intros r; pose proof (updated_nil r); tauto|]. split; lia. }
  rewrite sizes_cons in *. assert (O' : once l) by (intros x Hx; apply O; right; exact Hx). destruct a as [chunks|ids|wr]; cbn [uacts size_of] in *.
  - destruct (rel_insert t rows d w W chunks U) as (t1 & E1 & U1). rewrite E1 in E. cbn [rbind] in E.
    destruct (IH t1 _ d w W t' os U1) as (rows' & d' & w' & H & U' & W' & L'); [rewrite app_length; lia|lia|exact O'|exact E|]. exists rows', d', w'. split; [constructor; exact H|]. rewrite app_length in L'. split; [eapply rel_ext; [|exact U']; intros r; cbn beta; rewrite updated_cons; pose proof (updated_ins chunks r); tauto|]. split; lia.
  - destruct (u_delete t ids) as [[t1 o]|] eqn:E1; [|discriminate]. cbn [rbind] in E. destruct (uacts sort t1 l) as [[t2 os2]|] eqn:E2; [|discriminate]. cbn [rbind] in E. injection E as -> <-.
    destruct (rel_delete t rows d w W ids t1 o U) as (d1 & U1 & EF); [lia|lia|exact E1|]. destruct (IH t1 rows d1 _ W t' os2 U1) as (rows' & d' & w' & H & U' & W' & L'); [lia|lia|exact O'|exact E2|]. exists rows', d', w'. split; [econstructor; eassumption|].
    split; [eapply rel_ext; [|exact U']; intros r; cbn beta; rewrite updated_cons; pose proof (updated_del ids r); tauto|]. split; lia.
  - destruct (update_rows sort t wr) as [t1|] eqn:E1; [|discriminate]. cbn [rbind] in E. destruct (upd_sound sort HS (length wr) wr t rows d w W t1 U) as (rows1 & W1 & U1); [lia|apply O; left; reflexivity|exact E1|].
    destruct (IH t1 rows1 d w _ t' os U1) as (rows' & d' & w' & H & U' & W' & L'); [destruct W1 as (-> & _); lia|lia|exact O'|exact E|]. exists rows', d', w'. destruct W1 as (LW & W1). split; [econstructor; [|exact H]; split; assumption|]. rewrite LW in L'.
    split; [|split; lia]. eapply rel_ext; [|exact U']. intros r. cbn beta. rewrite updated_cons. assert (X : updated [UUpd wr] r <-> In r (map fst wr)). { unfold updated. cbn. split; [intros (v & [[= ->]|[]] & K); exact K|intros K; exists wr; auto]. } tauto.
Qed.

Lemma from_new (l : list (uact A)) t os : u_moderate l -> once l -> uacts sort new_tab l = Ok (t, os) ->
  exists rows d w, uhistory [] none_deleted l os rows d /\ URel t rows d w (updated l) /\ (w + 2000 < NOT_DELETED_ID)%N /\ (N.of_nat (length rows) + 1 < 2 ^ 63)%N.
Proof.
  intros M O E. unfold u_moderate in M. fold (sizes l) in M. assert (ND : NOT_DELETED_ID = (2 ^ 64 - 2)%N) by reflexivity.
  destruct (uacts_sound l new_tab [] none_deleted 0 (fun _ => False) t os rel_new) as (rows & d & w & H & U & W & L); [cbn [length]; lia|lia|exact O|exact E|]. exists rows, d, w. cbn [length] in L. split; [exact H|]. split; [|split; lia]. eapply rel_ext; [|exact U]. intros r. cbn beta. tauto.
Qed.
Lemma u_read_back (l : list (uact A)) t os : u_moderate l -> once l -> uacts sort new_tab l = Ok (t, os) ->
  exists rows d, uhistory [] none_deleted l os rows d /\ u_scan_all t None = Ok (live rows d) /\ forall ids, u_fetch t ids = Ok (flat_map (fun i => match nth_error rows i with Some a => [a] | None => [] end) ids).
Proof.
  intros M O E. destruct (from_new l t os M O E) as (rows & d & w & H & U & W & L). exists rows, d. split; [exact H|]. pose proof (rel_inv _ _ _ _ _ U) as I. assert (R : row_start (eff t) = 0) by apply U. assert (T : tok t) by apply U. assert (G : gsize (eff t) = CAP) by apply U. split.
  - rewrite scan_all_eff by exact T. rewrite (scan_all_ok (eff t) rows d w I) by lia. rewrite R. reflexivity.
  - intros ids. rewrite fetch_eff by exact T. apply fetch_table; [apply I| |exact R]. change (groups (eff t)) with (effs (upds t) 0 (groups (base t))). rewrite effs_len. apply (rel_groups _ _ _ _ _ U L).
Qed.
Lemma u_completes (l : list (uact A)) t os wr : u_moderate l -> once l -> uacts sort new_tab l = Ok (t, os) ->
  exists rows d, uhistory [] none_deleted l os rows d /\ (increasing (map fst wr) = true -> (forall r, In r (map fst wr) -> r < length rows) -> not_beyond l wr -> exists t', update_rows sort t wr = Ok t').
Proof.
  intros M O E. destruct (from_new l t os M O E) as (rows & d & w & H & U & W & L). exists rows, d. split; [exact H|]. intros I EX NB. apply (upd_total (length wr) wr t rows d w (updated l) U L (le_n _) I); [|exact NB]. rewrite Forall_forall. intros p Hp. apply EX, in_map, Hp.
Qed.
Lemma u_tail (l : list (uact A)) t os r a : u_moderate l -> once l -> uacts sort new_tab l = Ok (t, os) ->
  exists rows d, uhistory [] none_deleted l os rows d /\ (r < length rows -> (exists s, updated l s /\ together s r) -> (forall s, updated l s -> together s r -> s < r) -> update_rows sort t [(r, a)] = Err UB).
Proof.
  intros M O E. destruct (from_new l t os M O E) as (rows & d & w & H & U & W & L). exists rows, d. split; [exact H|]. apply (upd_beyond t rows d w (updated l)); assumption.
Qed.


(** *** the UPDATE statement *)
Lemma filter_none g (inf : nat -> option info) f ps : (forall v, inf v = None) -> u_filter g inf f ps = filter_positions g f ps.
Proof.
  intros N. induction ps as [|p ps IH]; [reflexivity|]. cbn [u_filter filter_positions]. unfold check_predicate. rewrite IH, N. destruct (p <? g_start g); [reflexivity|]. destruct (nth_error (g_data g) (p - g_start g)); [|reflexivity]. cbn [rbind]. reflexivity.
Qed.
Lemma scan_group_none g (inf : nat -> option info) f : (forall v, inf v = None) -> forall fuel vec max cpos, u_scan_group fuel g inf f vec max cpos = scan_group fuel g f vec max cpos.
Proof.
  intros N. induction fuel as [|fuel IH]; intros vec max cpos; [reflexivity|]. cbn [u_scan_group scan_group]. rewrite N, !IH. cbn [over1]. destruct f as [f|]; [|reflexivity]. rewrite (filter_none g inf f _ N). reflexivity.
Qed.
Lemma scan_next_none t f : (forall k v, upds t k v = None) -> forall fuel st, u_scan_next fuel t f st = scan_next fuel (base t) f st.
Proof.
  intros N. induction fuel as [|fuel IH]; intros st; [reflexivity|]. cbn [u_scan_next scan_next]. destruct (s_group st) as [k|]; [|reflexivity]. destruct (nth_error (groups (base t)) k) as [g|]; [|reflexivity]. rewrite scan_group_none by apply N. rewrite !IH. reflexivity.
Qed.
Lemma select_none t f limit : (forall k v, upds t k v = None) -> u_select_chunk t f limit = select_chunk (base t) f limit.
Proof. intros N. unfold u_select_chunk, select_chunk, u_scan_chunk, scan_chunk. rewrite scan_next_none by exact N. reflexivity. Qed.
Lemma rel_fresh t rows d w W : URel t rows d w W -> (forall r, ~ W r) -> (forall k v, upds t k v = None) /\ Inv (base t) rows d w.
Proof.
  intros ((rows0 & I & LR) & S & R & SH & (T1 & T2) & U1 & U2 & U3 & C) N. assert (UN : forall k v, upds t k v = None).
  { intros k v. destruct (nth_error (groups (base t)) k) as [g|] eqn:E; [|apply U1; apply nth_error_None; exact E]. specialize (U2 k g E). specialize (T2 k g E). destruct T2 as [T2 T3]. destruct v as [|v]; [|apply T2; lia]. destruct (upds t k 0) as [[|[o a] i]|]; [destruct T3; congruence| |reflexivity].
    exfalso. destruct T3 as (_ & _ & T3). pose proof (Forall_inv T3) as T4. cbn [fst] in T4. pose proof (proj1 (Forall_nth _ _) T1 k g E) as [_ X]. apply (N (g_start g + o)). apply U2; [lia|]. left. reflexivity. }
  split; [exact UN|]. assert (rows0 = rows); [|subst; exact I]. destruct I as (_ & (_ & _ & _ & L4) & _). rewrite <- L4, <- C. f_equal. change (groups (eff t)) with (effs (upds t) 0 (groups (base t))). clear - UN. generalize 0. induction (groups (base t)) as [|g gs IH]; intros k; [reflexivity|]. cbn [effs map effg g_data]. rewrite UN. cbn [over1]. rewrite (IH (S k)) at 1. reflexivity.
Qed.

Lemma nth_error_firstn' {B} n : forall (l : list B) i, i < n -> nth_error (firstn n l) i = nth_error l i.
Proof. induction n as [|n IH]; intros [|x l] [|i] H; try lia; try reflexivity. cbn. apply IH. lia. Qed.
Lemma nth_error_skipn' {B} n : forall (l : list B) i, nth_error (skipn n l) i = nth_error l (n + i).
Proof. induction n as [|n IH]; intros [|x l] i; try reflexivity; [destruct i; reflexivity|]. cbn. apply IH. Qed.

Lemma map_fst_combine {B C} (l : list B) : forall (l' : list C), length l = length l' -> map fst (combine l l') = l.
Proof. induction l as [|x l IH]; intros [|y l'] H; try discriminate; [reflexivity|]. cbn. f_equal. apply IH. cbn in H. lia. Qed.
Lemma nth_error_combine' {B C} (l : list B) : forall (l' : list C) i x y, nth_error l i = Some x -> nth_error l' i = Some y -> nth_error (combine l l') i = Some (x, y).
Proof. induction l as [|a l IH]; intros [|b l'] [|i] x y H H'; try discriminate; [cbn in *; congruence|]. cbn in *. apply IH; assumption. Qed.

(** writing to the result of a scan *)
Section Place.
Variable place : nat -> A -> A -> A.
Lemma put_nth (data : list A) p a b : nth_error data p = Some a -> length (firstn p data ++ b :: skipn (S p) data) = length data /\
  forall r, nth_error (firstn p data ++ b :: skipn (S p) data) r = if r =? p then Some b else nth_error data r.
Proof.
  intros E. assert (L : p < length data) by (apply nth_error_Some; congruence). assert (LF : length (firstn p data) = p) by (rewrite firstn_length; lia). split.
  - rewrite app_length, LF. cbn [length]. rewrite skipn_length. lia.
  - intros r. destruct (lt_dec r p) as [Q|Q].
    + rewrite nth_error_app1 by lia. rewrite nth_error_firstn' by exact Q. replace (r =? p) with false by lia. reflexivity.
    + rewrite nth_error_app2 by lia. rewrite LF. destruct (r =? p) eqn:QE; [replace (r - p) with 0 by lia; reflexivity|]. replace (r - p) with (S (r - S p)) by lia. cbn [nth_error]. rewrite nth_error_skipn'. f_equal. lia.
Qed.
Lemma write_len ws : forall start (data : list A), length (write_rows place start data ws) = length data.
Proof.
  induction ws as [|[p b] ws IH]; intros start data; [reflexivity|]. cbn [write_rows]. rewrite IH. destruct (nth_error data p) as [a|] eqn:E; [|reflexivity]. apply (put_nth data p a _ E).
Qed.
Lemma write_nth ws : forall (data : list A) r, NoDup (map fst ws) -> nth_error (write_rows place 0 data ws) r = match last_write ws r with Some b => option_map (fun a => place r a b) (nth_error data r) | None => nth_error data r end.
Proof.
  induction ws as [|[p b] ws IH]; intros data r ND; [reflexivity|]. cbn [write_rows]. cbn [map fst] in ND. inversion ND as [|? ? N1 N2]; subst. rewrite (IH _ _ N2). clear IH.
  assert (LW : last_write ((p, b) :: ws) r = if r =? p then Some b else last_write ws r).
  { destruct (r =? p) eqn:Q; [apply Nat.eqb_eq in Q; subst r; apply last_write_in; [constructor; assumption|left; reflexivity]|]. cbn [last_write]. rewrite (Nat.eqb_sym p r), Q. destruct (last_write ws r); reflexivity. }
  rewrite LW. destruct (nth_error data p) as [a|] eqn:E.
  - destruct (put_nth data p a (place (0 + p) a b) E) as [_ P]. rewrite P. destruct (r =? p) eqn:Q; [|reflexivity]. apply Nat.eqb_eq in Q. subst r. rewrite E. rewrite (proj2 (last_write_none ws p)) by exact N1. reflexivity.
  - destruct (r =? p) eqn:Q; [|reflexivity]. apply Nat.eqb_eq in Q. subst r. rewrite E. destruct (last_write ws p); reflexivity.
Qed.
Lemma rel_data t rows d w W g r rows1 : URel t rows d w W -> (forall k v, upds t k v = None) -> groups (base t) = g :: r -> g_data g = rows -> length rows1 = length rows ->
  URel {| base := with_groups (base t) (UpdModel.set_data g rows1 :: r); upds := upds t |} rows1 d w W.
Proof.
  intros ((rows0 & (I1 & (L1 & L2 & L3 & L4) & I2 & I3) & LR) & S & R & SH & (T1 & T2) & U1 & U2 & U3 & C) UN EG ED LL. rewrite EG in *.
  assert (CR : concat (map g_data r) = []). { cbn [map concat] in L4. apply (f_equal (@length A)) in L4. rewrite app_length, ED in L4. destruct (concat (map g_data r)); [reflexivity|cbn in L4; lia]. }
  assert (EF : forall k gs, map g_data (effs (upds t) k gs) = map g_data gs). { intros k gs. revert k. induction gs as [|x gs IH]; intros k; [reflexivity|]. cbn [effs map effg g_data]. rewrite UN. cbn [over1]. rewrite IH. reflexivity. }
  unfold URel. cbn [base upds with_groups groups gsize row_start]. split; [|csplit].
  - exists rows1. split; [|reflexivity]. split; [exact I1|]. split; [|split].
    + unfold layout. cbn [with_groups groups gsize row_start total]. split; [|split; [|split]].
      * destruct L1 as [L1 L1']. split; [exact L1|exact L1'].
      * inversion L2 as [|? ? [X1 X2] X3]; subst. constructor; [split; [exact X1|]|exact X3]. cbn [UpdModel.set_data g_data]. change (g_count (UpdModel.set_data g rows1)) with (g_count g). congruence.
      * congruence.
      * cbn [map concat UpdModel.set_data g_data]. rewrite CR, app_nil_r. reflexivity.
    + cbn [with_groups row_start]. intros q Hq. apply I2. lia.
    + cbn [with_groups groups]. inversion I3; subst. constructor; assumption.
  - exact S.
  - exact R.
  - destruct SH as [SH|SH]; [rewrite EG in SH; discriminate|]. right. cbn [with_groups groups gsize]. rewrite EG in SH. cbn [fbl] in *. cbn [UpdModel.set_data g_data]. destruct r; [rewrite LL, <- ED; exact SH|]. destruct SH as [X1 X2]. split; [|exact X2]. rewrite LL, <- ED. exact X1.
  - split; [inversion T1 as [|? ? [X1 X2] X3]; subst; constructor; [split; [exact X1|cbn [UpdModel.set_data g_data]; change (g_count (UpdModel.set_data g rows1)) with (g_count g); congruence]|exact X3]|].
    intros k g' _. split; [intros v _; apply UN|]. cbn [upds]. rewrite UN. exact Logic.I.
  - exact U1.
  - intros [|k] g' E; cbn [nth_error] in E; [inversion E; subst; apply (U2 0 g eq_refl)|apply (U2 (Datatypes.S k) g' E)].
  - intros q Hq. rewrite LL. apply U3, Hq.
  - unfold eff. cbn [base with_groups groups upds]. rewrite EF. cbn [map concat UpdModel.set_data g_data]. rewrite CR, app_nil_r. reflexivity.
Qed.
(** the table after [ws] was written to the chunk read from a table of at most 1024 rows *)
Lemma in_place_small t rows d w W f ws : URel t rows d w W -> (forall r, ~ W r) -> (w < NOT_DELETED_ID)%N -> length rows <= CAP -> (wanted f (keep d (pairs 0 rows)) = [] -> ws = []) ->
  URel (in_place place t f ws) (write_rows place 0 rows ws) d w W.
Proof.
  intros U N WB LB NE. destruct (rel_fresh t rows d w W U N) as [UN I]. pose proof U as (_ & S & R & SH & _).
  unfold in_place, u_scan_chunk. rewrite (scan_next_none t f UN). change (scan_next (Datatypes.S (length (groups (base t)))) (base t) f (init_scan (base t))) with (scan_chunk (base t) f (init_scan (base t))).
  destruct (scan_small (base t) rows d w f I S R SH WB LB) as [[-> E]|[-> E]]; [rewrite (NE E); exact U|].
  cbn [s_group s_vec s_cpos]. destruct (small_shape (base t) rows d w I S SH LB) as [EG|(g & r & EG & ED & _)].
  { exfalso. apply E. destruct I as (_ & (_ & _ & _ & L4) & _). rewrite EG in L4. cbn in L4. subst rows. destruct f; reflexivity. }
  rewrite EG. cbn [map_nth]. replace (existsb _ _) with false.
  2: { symmetry. apply not_true_is_false. intros H. apply existsb_exists in H. destruct H as (v & _ & H). rewrite UN in H. discriminate. }
  cbv zeta. rewrite ED. replace (length rows - Nat.min CAP (length rows - (1 - 1) * CAP)) with 0 by lia.
  assert (GS : g_start g = 0). { destruct I as (_ & (L1 & _) & _). rewrite EG in L1. destruct L1 as [L1 _]. congruence. }
  rewrite GS. replace (map (fun w0 : nat * A => (0 + fst w0, snd w0)) ws) with ws by (clear; induction ws as [|[p b] ws IH]; cbn; [reflexivity|f_equal; exact IH]).
  apply (rel_data t rows d w W g r); auto. apply write_len.
Qed.

Definition hits (f : option (A -> bool)) (rows : list A) (d : nat -> bool) (limit : option nat) : list (nat * A) := cut limit (wanted f (keep d (pairs 0 rows))).
Lemma hits_victims f rows d limit : map fst (hits f rows d limit) = victims f rows d limit. Proof. unfold victims. rewrite up_to_cut. reflexivity. Qed.
Lemma hits_nth f (rows : list A) d limit r a : In (r, a) (hits f rows d limit) -> nth_error rows r = Some a.
Proof.
  intros H. assert (H' : In (r, a) (wanted f (keep d (pairs 0 rows)))). { unfold hits, cut in H. destruct limit as [n|]; [|exact H]. rewrite <- (firstn_skipn n). apply in_or_app. auto. }
  apply wanted_sub in H'. apply filter_In in H'. destruct H' as [H' _]. apply pairs_nth in H'. rewrite Nat.sub_0_r in H'. apply H'.
Qed.
Lemma ss_filter {B} (R : B -> B -> Prop) f l : StronglySorted R l -> StronglySorted R (filter f l).
Proof. induction 1 as [|a l H IH F]; cbn; [constructor|]. destruct (f a); [|exact IH]. constructor; [exact IH|]. rewrite Forall_forall in *. intros x Hx. apply filter_In in Hx. apply F, Hx. Qed.
Lemma ss_firstn {B} (R : B -> B -> Prop) n l : StronglySorted R l -> StronglySorted R (firstn n l).
Proof. intros H. revert n. induction H as [|a l H IH F]; intros [|n]; cbn; try constructor; [apply IH|]. rewrite Forall_forall in *. intros x Hx. apply F. rewrite <- (firstn_skipn n). apply in_or_app. auto. Qed.
Lemma ss_map_fst (q : list (nat * A)) : StronglySorted (fun p p' => fst p < fst p') q -> StronglySorted lt (map fst q).
Proof. induction 1 as [|a l H IH F]; cbn; constructor; [exact IH|]. rewrite Forall_map. exact F. Qed.
Lemma pairs_sorted (l : list A) : forall s, StronglySorted (fun p p' : nat * A => fst p < fst p') (pairs s l).
Proof.
  induction l as [|a l IH]; intros s; [constructor|]. change (pairs s (a :: l)) with ((s, a) :: pairs (S s) l). constructor; [apply IH|]. rewrite Forall_forall. intros [p x] H. apply pairs_nth in H. cbn [fst]. lia.
Qed.
Lemma hits_increasing f rows d limit : increasing (map fst (hits f rows d limit)) = true.
Proof.
  apply increasing_back, ss_map_fst. unfold hits, cut. assert (X : StronglySorted (fun p p' : nat * A => fst p < fst p') (wanted f (keep d (pairs 0 rows)))) by (apply ss_filter, ss_filter, pairs_sorted). destruct limit; [apply ss_firstn|]; exact X.
Qed.
Lemma combine_sel (q : list (nat * A)) (set : A -> A) : combine (map fst q) (map set (map snd q)) = map (fun p => (fst p, set (snd p))) q.
Proof. induction q as [|[r a] q IH]; [reflexivity|]. cbn. rewrite IH. reflexivity. Qed.

(** [rows'] is [rows] with [set] applied to the rows [ids] *)
Lemma stmt_small t rows d w W f limit set : URel t rows d w W -> (forall r, ~ W r) -> (w + 2000 < NOT_DELETED_ID)%N -> length rows <= CAP -> (f <> None \/ exists r, r < length rows /\ d r = true) ->
  exists t' rows', update_stmt sort place t f limit set = Ok t' /\ length rows' = length rows /\ (forall r, nth_error rows' r = if mem r (victims f rows d limit) then option_map set (nth_error rows r) else nth_error rows r) /\
   u_scan_all t' None = Ok (live rows' d).
Proof.
  intros U N WB LB C. destruct (rel_fresh t rows d w W U N) as [UN I]. pose proof U as (_ & S & R & SH & _). assert (NB : (N.of_nat (length rows) + 1 < 2 ^ 63)%N) by (assert (N.of_nat CAP = 1024%N) by reflexivity; lia).
  unfold update_stmt. rewrite select_none by exact UN. rewrite (select_small (base t) rows d w) by (auto; lia). cbn [rbind].
  assert (SEL : combine (if flat (chunk_of f rows d limit) then repeat 0 (length (out (chunk_of f rows d limit))) else sel (chunk_of f rows d limit)) (map set (out (chunk_of f rows d limit))) = map (fun p => (fst p, set (snd p))) (hits f rows d limit)).
  { rewrite <- combine_sel. unfold chunk_of, hits. cbv zeta.
    assert (FL : match f with None => length (wanted f (keep d (pairs 0 rows))) =? length rows | Some _ => false end = false).
    { destruct f as [f|]; [reflexivity|]. destruct C as [C|(r & C1 & C2)]; [congruence|]. unfold wanted. rewrite filter_all by reflexivity. destruct (nth_error rows r) as [a|] eqn:E; [|apply nth_error_None in E; lia].
      assert (In (r, a) (pairs 0 rows)). { clear - E. assert (G : forall (l : list A) s p x, nth_error l p = Some x -> In (s + p, x) (pairs s l)). { induction l as [|y l IH]; intros s [|p] x E'; cbn in E'; try discriminate; change (pairs s (y :: l)) with ((s, y) :: pairs (Datatypes.S s) l). - inversion E'; subst. left. f_equal. lia. - right. replace (s + Datatypes.S p) with (Datatypes.S s + p) by lia. apply IH, E'. } apply (G rows 0 r a E). }
      pose proof (keep_all_len d _ r a H C2) as K. replace (length (pairs 0 rows)) with (length rows) in K by (rewrite <- (map_length fst (pairs 0 rows)), pairs_fst, seq_length; reflexivity). lia. }
    destruct limit as [[|n]|]; [reflexivity| |]; (destruct (wanted f (keep d (pairs 0 rows))) as [|x q] eqn:EQ; [reflexivity|]); rewrite <- EQ in *; cbn [flat sel out]; rewrite FL; [rewrite !cut_map|]; reflexivity. }
  assert (SEL2 : combine (sel (chunk_of f rows d limit)) (map set (out (chunk_of f rows d limit))) = map (fun p => (fst p, set (snd p))) (hits f rows d limit)).
  { rewrite <- combine_sel. unfold chunk_of, hits. cbv zeta. destruct limit as [[|n]|]; [reflexivity| |]; (destruct (wanted f (keep d (pairs 0 rows))) as [|x q] eqn:EQ; [reflexivity|]); rewrite <- EQ in *; cbn [flat sel out]; [rewrite !cut_map|]; reflexivity. }
  rewrite SEL, SEL2. set (l := map (fun p : nat * A => (fst p, set (snd p))) (hits f rows d limit)).
  assert (LF : map fst l = victims f rows d limit). { unfold l. rewrite map_map, <- hits_victims. apply map_ext. reflexivity. }
  assert (INC : increasing (map fst l) = true). { rewrite LF, <- hits_victims. apply hits_increasing. }
  destruct (victims_ok f rows d limit) as [ND LV].
  assert (U1 : URel (in_place place t f l) (write_rows place 0 rows l) d w W). { apply in_place_small; auto; [lia|]. intros E. unfold l, hits. rewrite E, cut_nil. reflexivity. }
  assert (LR : length (write_rows place 0 rows l) = length rows) by apply write_len.
  assert (WN : forall r, nth_error (write_rows place 0 rows l) r = match last_write l r with Some b => option_map (fun a => place r a b) (nth_error rows r) | None => nth_error rows r end) by (intros r; apply write_nth; rewrite LF; exact ND).
  set (t1 := in_place place t f l) in *. set (rows1 := write_rows place 0 rows l) in *. rewrite <- LR in NB.
  destruct (upd_total (length l) l t1 rows1 d w W U1 NB (le_n _) INC) as [t' E]; [rewrite Forall_forall; intros p Hp; rewrite LR; apply LV; rewrite <- LF; apply in_map, Hp|intros r _ (s & Hs & _); destruct (N s Hs)|].
  destruct (upd_sound sort HS (length l) l t1 rows1 d w W t' U1 NB) as (rows' & (L1 & L2 & L3) & U'); [rewrite LF; exact ND|exact E|].
  rewrite LR in L1, L3. exists t', rows'. split; [exact E|]. split; [exact L1|]. split.
  - intros r. destruct (lt_dec r (length rows)) as [Q|Q].
    + rewrite L3 by exact Q. rewrite WN. destruct (mem r (victims f rows d limit)) eqn:M.
      * apply mem_in in M. rewrite <- LF in M. pose proof M as M'. unfold l in M'. rewrite map_map in M'. apply in_map_iff in M'. destruct M' as ([r' a] & X1 & X2). cbn [fst] in X1. subst r'. rewrite (hits_nth _ _ _ _ _ _ X2). cbn [option_map].
        assert (X3 : last_write l r = Some (set a)). { apply last_write_in; [rewrite LF; exact ND|]. unfold l. apply in_map_iff. exists (r, a). auto. } rewrite X3. reflexivity.
      * assert (X3 : last_write l r = None). { apply last_write_none. rewrite LF. intros H. apply mem_in in H. congruence. } rewrite X3. reflexivity.
    + assert (X1 : nth_error rows r = None) by (apply nth_error_None; lia). assert (X2 : nth_error rows' r = None) by (apply nth_error_None; lia). rewrite X1, X2. destruct (mem _ _); reflexivity.
  - assert (G' : gsize (eff t') = CAP) by apply U'. rewrite scan_all_eff by apply U'. rewrite (scan_all_ok (eff t') rows' d w (rel_inv _ _ _ _ _ U')) by lia. assert (R' : row_start (eff t') = 0) by apply U'. rewrite R'. reflexivity.
Qed.
Lemma u_where (l : list (uact A)) t os : u_moderate l -> once l -> (forall r, ~ updated l r) -> uacts sort new_tab l = Ok (t, os) -> exists rows d, uhistory [] none_deleted l os rows d /\
  (length rows <= CAP -> forall f limit set, f <> None \/ (exists r, r < length rows /\ d r = true) -> exists t' rows', update_stmt sort place t f limit set = Ok t' /\ length rows' = length rows /\
    (forall r, nth_error rows' r = if mem r (victims f rows d limit) then option_map set (nth_error rows r) else nth_error rows r) /\ u_scan_all t' None = Ok (live rows' d)).
Proof.
  intros M O N E. destruct (from_new l t os M O E) as (rows & d & w & H & U & W & L). exists rows, d. split; [exact H|]. intros. apply (stmt_small t rows d w (updated l)); assumption.
Qed.

(** all ids zero *)
Lemma run_zeros lo hi (l : info) : lo <= 0 < hi -> Forall (fun p => fst p = 0) l -> run_in lo hi l = (l, []).
Proof. intros B. induction 1 as [|[i a] l H F IH]; [reflexivity|]. cbn [fst] in H. subst i. cbn [run_in]. replace ((lo <=? 0) && (0 <? hi)) with true by lia. rewrite IH. reflexivity. Qed.
Lemma key_zeros n i : key (repeat 0 n) i = 0.
Proof. unfold key. revert i. induction n as [|n IH]; intros [|i]; cbn; auto. Qed.
Lemma dedup_zeros n l : forall p, dedup (repeat 0 n) p l = [].
Proof. induction l as [|i l IH]; intros p; [reflexivity|]. cbn [dedup]. rewrite !key_zeros. apply IH. Qed.
Lemma sort_zeros n : 0 < n -> exists i, i < n /\ sort_index sort (repeat 0 n) = [i].
Proof.
  intros H. unfold sort_index. destruct (increasing (repeat 0 n)) eqn:E.
  - destruct n as [|[|n]]; [lia|exists 0; split; [lia|reflexivity]|]. change ((0 <? 0) && increasing (repeat 0 (S n)) = true) in E. discriminate.
  - destruct (HS (repeat 0 n)) as [P _]. rewrite repeat_length in P. destruct (sort (repeat 0 n)) as [|i r]; [apply Permutation_length in P; rewrite seq_length in P; cbn in P; lia|]. exists i. rewrite dedup_zeros. split; [|reflexivity].
    assert (In i (seq 0 n)) by (apply (Permutation_in _ P); left; reflexivity). apply in_seq in H0. lia.
Qed.
Lemma seg_zeros (inf : nat -> option info) (l : info) : l <> [] -> Forall (fun p => fst p = 0) l -> exists i a, nth_error l i = Some (0, a) /\ seg_update sort inf 0 l = seg_update sort inf 0 [(0, a)].
Proof.
  intros NE F. assert (K : map fst l = repeat 0 (length l)). { clear NE. induction F as [|[i a] l H F IH]; [reflexivity|]. cbn. cbn [fst] in H. subst i. rewrite IH. reflexivity. }
  destruct (sort_zeros (length l)) as (i & Hi & E); [destruct l; [congruence|cbn; lia]|]. destruct (nth_error l i) as [[j a]|] eqn:EN; [|apply nth_error_None in EN; lia].
  assert (j = 0). { rewrite Forall_forall in F. apply (F (j, a)). eapply nth_error_In, EN. } subst j. exists i, a. split; [exact EN|]. unfold seg_update. rewrite K, E, key_zeros. change (sort_index sort (map fst [(0, a)])) with [0]. cbv zeta. change (key (map fst [(0, a)]) 0) with 0. cbn [flat_map]. unfold pick. rewrite EN. cbn [nth_error]. reflexivity.
Qed.
Lemma update_everything (rows : list A) (set : A -> A) : 0 < length rows <= CAP -> exists t i x t', u_insert new_tab [rows] = Ok t /\ nth_error rows i = Some x /\ update_stmt sort place t None None set = Ok t' /\
  exists rest, u_scan_all t' None = Ok (set x :: rest) /\ S (length rest) = length rows /\ forall r a, nth_error rows (S r) = Some a -> nth_error rest r = Some (place (S r) a (set a)).
Proof.
  intros [L1 L2]. assert (N.of_nat CAP = 1024%N) as CE by reflexivity. assert (ND : NOT_DELETED_ID = (2 ^ 64 - 2)%N) by reflexivity. destruct (rel_insert new_tab [] none_deleted 0 (fun _ => False) [rows] rel_new) as (t & E & U). cbn [app concat] in U. rewrite app_nil_r in U. exists t.
  destruct (rel_fresh _ _ _ _ _ U ltac:(tauto)) as [UN I]. pose proof U as (_ & S & R & SH & _). assert (NB : (N.of_nat (length rows) + 1 < 2 ^ 63)%N) by lia.
  assert (KA : keep none_deleted (pairs 0 rows) = pairs 0 rows) by (unfold keep; apply filter_all; reflexivity).
  assert (WA : wanted None (pairs 0 rows) = pairs 0 rows) by (unfold wanted; apply filter_all; reflexivity).
  assert (LP : length (pairs 0 rows) = length rows) by (rewrite <- (map_length snd (pairs 0 rows)), pairs_snd; reflexivity).
  assert (CH : flat (chunk_of None rows none_deleted None) = true /\ out (chunk_of None rows none_deleted None) = rows /\ sel (chunk_of None rows none_deleted None) = seq 0 (length rows)).
  { unfold chunk_of. cbv zeta. rewrite KA, WA, LP. destruct (pairs 0 rows) as [|p q] eqn:EP; [cbn in LP; lia|]. rewrite <- EP. cbn [flat out sel]. rewrite Nat.eqb_refl. split; [reflexivity|]. unfold cut. split; [apply pairs_snd|apply pairs_fst]. }
  destruct CH as (C1 & C2 & C3). set (ws := combine (seq 0 (length rows)) (map set rows)).
  assert (WF : map fst ws = seq 0 (length rows)). { unfold ws. apply map_fst_combine. rewrite seq_length, map_length. reflexivity. }
  assert (U1 : URel (in_place place t None ws) (write_rows place 0 rows ws) none_deleted 0 (fun _ => False)).
  { apply in_place_small; auto; [lia|]. rewrite KA, WA. intros X. apply (f_equal (@length _)) in X. rewrite LP in X. cbn in X. lia. }
  assert (LR : length (write_rows place 0 rows ws) = length rows) by apply write_len.
  assert (WN : forall r a, nth_error rows r = Some a -> nth_error (write_rows place 0 rows ws) r = Some (place r a (set a))).
  { intros r a Hr. rewrite write_nth by (rewrite WF; apply seq_NoDup). assert (X : last_write ws r = Some (set a)); [|rewrite X, Hr; reflexivity]. apply last_write_in; [rewrite WF; apply seq_NoDup|].
    apply (nth_error_In _ r). unfold ws. apply nth_error_combine'; [|rewrite nth_error_map, Hr; reflexivity]. assert (r < length rows) by (apply nth_error_Some; congruence). rewrite nth_error_nth' with (d := 0) by (rewrite seq_length; lia). rewrite seq_nth by lia. reflexivity. }
  set (t1 := in_place place t None ws) in *. set (rows1 := write_rows place 0 rows ws) in *.
  set (l := combine (repeat 0 (length rows)) (map set rows)).
  assert (LL : length l = length rows) by (unfold l; rewrite combine_length, repeat_length, map_length; lia).
  assert (LZ : Forall (fun p => fst p = 0) l). { unfold l. rewrite Forall_forall. intros [i a] H. apply in_combine_l in H. apply repeat_spec in H. exact H. }
  assert (UR : exists i x, nth_error rows i = Some x /\ update_rows sort t1 l = update_rows sort t1 [(0, set x)]).
  { destruct (rel_find _ _ _ _ _ 0 U1 ltac:(lia) ltac:(lia)) as (g & E1 & E2 & E3). destruct (rel_start _ _ _ _ _ _ _ U1 E2) as (G1 & G2 & G3 & G4). assert (Z : 0 / CAP = 0) by (apply Nat.div_small; pose proof CAP_big; lia). rewrite Z in *. cbn [Nat.mul] in G1.
    destruct (seg_zeros (upds t1 0) l) as (i & a & X1 & X2); [destruct l; [cbn in LL; lia|discriminate]|exact LZ|].
    assert (exists x, nth_error rows i = Some x /\ a = set x) as (x & X3 & ->).
    { clear - X1. unfold l in X1. revert i X1. induction rows as [|y rows IH]; intros [|i] X1; cbn in X1; try discriminate; [inversion X1; subst; exists y; auto|]. apply IH in X1. exact X1. }
    exists i, x. split; [exact X3|]. unfold update_rows. destruct l as [|[j b] l'] eqn:EL; [cbn in LL; lia|]. pose proof (Forall_inv LZ) as J. cbn [fst] in J. subst j. cbn [length upd_loop]. rewrite E1. cbn [rbind]. rewrite E2.
    assert (K : (0 - g_start g) / CAP = 0) by (rewrite G1; exact Z). rewrite K. cbn [Nat.mul]. rewrite G1, Nat.add_0_r. rewrite (run_zeros 0 _ l') by (try (apply (Forall_inv_tail LZ)); lia). cbn [run_in]. rewrite X2. destruct (seg_update sort (upds t1 0) 0 [(0, set x)]) as [inf|]; [|reflexivity]. cbn [rbind]. destruct (length l'); reflexivity. }
  destruct UR as (i & x & X1 & X2). exists i, x.
  destruct (upd_total 1 [(0, set x)] t1 rows1 none_deleted 0 _ U1 ltac:(lia) (le_n _) eq_refl) as [t' E']; [constructor; [cbn [fst]; lia|constructor]|intros r _ (s & [] & _)|].
  destruct (upd_sound sort HS 1 [(0, set x)] t1 rows1 none_deleted 0 _ t' U1 ltac:(lia)) as (rows' & (W1 & W2 & W3) & U'); [repeat constructor; intros []|exact E'|].
  exists t'. split; [exact E|]. split; [exact X1|]. split.
  - unfold update_stmt. rewrite select_none by exact UN. rewrite (select_small (base t) rows none_deleted 0) by (auto; lia). cbn [rbind]. rewrite C1, C2, C3. fold l. fold ws. fold t1. rewrite X2. exact E'.
  - assert (G' : gsize (eff t') = CAP) by apply U'. rewrite scan_all_eff by apply U'. rewrite (scan_all_ok (eff t') rows' none_deleted 0 (rel_inv _ _ _ _ _ U')) by lia. assert (R' : row_start (eff t') = 0) by apply U'. rewrite R'. unfold keep. rewrite filter_all by reflexivity. rewrite pairs_snd.
    assert (Z : nth_error rows' 0 = Some (set x)) by (rewrite W3 by lia; reflexivity). destruct rows' as [|y rest]; [discriminate|]. cbn [nth_error] in Z. injection Z as ->. exists rest. split; [reflexivity|]. split; [cbn [length] in W1; lia|].
    intros r a Hr. assert (Datatypes.S r < length rows) by (apply nth_error_Some; congruence). specialize (W3 (Datatypes.S r) ltac:(lia)). cbn [nth_error last_write] in W3. rewrite W3. cbn [Nat.eqb]. exact (WN (Datatypes.S r) a Hr).
Qed.
End Place.
End Acts.

(** an insertion sort of the indexes, to show [sorts] *)
Fixpoint ins (keys : list nat) (i : nat) (l : list nat) : list nat :=
  match l with [] => [i] | j :: r => if nth i keys 0 <=? nth j keys 0 then i :: l else j :: ins keys i r end.
Definition isort (keys : list nat) : list nat := fold_right (ins keys) [] (seq 0 (length keys)).
Lemma ins_perm keys i l : Permutation (ins keys i l) (i :: l).
Proof. induction l as [|j l IH]; cbn [ins]; [reflexivity|]. destruct (_ <=? _); [reflexivity|]. rewrite IH. apply perm_swap. Qed.
Lemma ins_sorted keys i l : StronglySorted le (map (fun i => nth i keys 0) l) -> StronglySorted le (map (fun i => nth i keys 0) (ins keys i l)).
Proof.
  induction l as [|j l IH]; intros H; cbn [ins map]; [repeat constructor|]. destruct (nth i keys 0 <=? nth j keys 0) eqn:Q.
  - cbn [map] in *. constructor; [exact H|]. inversion H as [|? ? H1 H2]; subst. constructor; [lia|]. eapply Forall_impl; [|exact H2]. cbn. intros; lia.
  - cbn [map] in *. inversion H as [|? ? H1 H2]; subst. constructor; [apply IH, H1|]. rewrite Forall_map in *. rewrite Forall_forall in *. intros x Hx. apply (Permutation_in _ (ins_perm keys i l)) in Hx. destruct Hx as [<-|Hx]; [lia|apply H2, Hx].
Qed.
Lemma isort_sorts : sorts isort.
Proof.
  intros keys. unfold isort. generalize (seq 0 (length keys)). intros l. induction l as [|i l [IH1 IH2]]; [split; [reflexivity|constructor]|]. cbn [fold_right]. split; [rewrite ins_perm, IH1; reflexivity|apply ins_sorted, IH2].
Qed.
