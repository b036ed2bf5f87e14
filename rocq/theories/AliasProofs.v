From Verif Require Import Bytes Outcome AliasModel AliasSpec.
Local Open Scope nat_scope.

Lemma nth_error_firstn {B} n : forall (l : list B) i, i < n -> nth_error (firstn n l) i = nth_error l i.
Proof. induction n as [|n IH]; intros [|x l] [|i] H; try lia; try reflexivity. cbn. apply IH. lia. Qed.
Lemma nth_error_skipn {B} n : forall (l : list B) i, nth_error (skipn n l) i = nth_error l (n + i).
Proof. induction n as [|n IH]; intros [|x l] i; try reflexivity; [destruct i; reflexivity|]. cbn. apply IH. Qed.
Lemma nth_error_ext {B} : forall (l l' : list B), (forall n, nth_error l n = nth_error l' n) -> l = l'.
Proof.
  induction l as [|x l IH]; intros [|y l'] H; [reflexivity|specialize (H 0); discriminate|specialize (H 0); discriminate|]. pose proof (H 0) as H0. cbn in H0. injection H0 as ->. f_equal. apply IH. intros n. apply (H (S n)).
Qed.
Lemma firstn_seq n : forall k s, firstn n (seq s k) = seq s (Nat.min n k).
Proof. induction n as [|n IH]; intros [|k] s; try reflexivity. cbn. f_equal. apply IH. Qed.
Lemma seq_shift_map k n : seq (k + 0) n = map (fun i => k + i) (seq 0 n).
Proof. revert k. induction n as [|n IH]; intros k; [reflexivity|]. cbn [seq map]. f_equal. rewrite <- (seq_shift n 0), map_map. replace (S (k + 0)) with (S k + 0) by lia. rewrite IH. apply map_ext. intros i. lia. Qed.

Section Proofs.
Context {A : Type}.
Notation mem := (mem A).
Implicit Types m : mem.

Lemma fetch_rows_ok n : forall m s row v idx, sg_buf s <> v_buf v -> exists m', fetch_rows m s row v idx n = Ok m' /\
  forall b p, m' b p = if (b =? v_buf v) && (v_off v + idx <=? p) && (p <? v_off v + idx + n) then m (sg_buf s) (row + (p - (v_off v + idx))) else m b p.
Proof.
  induction n as [|n IH]; intros m s row v idx NE; cbn [fetch_rows].
  - exists m. split; [reflexivity|]. intros b p. replace ((b =? v_buf v) && (v_off v + idx <=? p) && (p <? v_off v + idx + 0)) with false by lia. reflexivity.
  - replace (sg_buf s =? v_buf v) with false by lia. cbn [andb].
    destruct (IH (put m (v_buf v) (v_off v + idx) (m (sg_buf s) row)) s (S row) v (S idx) NE) as (m' & E & H). exists m'. split; [exact E|]. intros b p. rewrite H. unfold put.
    replace (sg_buf s =? v_buf v) with false by lia. cbn [andb].
    destruct (b =? v_buf v) eqn:Q; cbn [andb]; [|reflexivity]. destruct (p =? v_off v + idx) eqn:Q2.
    + replace (v_off v + S idx <=? p) with false by lia. replace ((v_off v + idx <=? p) && (p <? v_off v + idx + S n)) with true by lia. cbn [andb]. f_equal. lia.
    + replace ((v_off v + idx <=? p) && (p <? v_off v + idx + S n)) with ((v_off v + S idx <=? p) && (p <? v_off v + S idx + n)) by lia. destruct ((v_off v + S idx <=? p) && (p <? v_off v + S idx + n)) eqn:Q3; [|reflexivity]. f_equal. lia.
Qed.

(** what copying [n] rows does: the same memory as after the loop *)
Lemma part_ok n m s row v idx : sg_buf s <> v_buf v -> exists m1 m2, fetch_rows m s row v idx n = Ok m1 /\ copy_rows m1 s row v idx n = Ok m2 /\
  (forall b p, m1 b p = if (b =? v_buf v) && (v_off v + idx <=? p) && (p <? v_off v + idx + n) then m (sg_buf s) (row + (p - (v_off v + idx))) else m b p) /\
  (forall b p, m2 b p = if (b =? v_buf v) && (v_off v + idx <=? p) && (p <? v_off v + idx + n) then m (sg_buf s) (row + (p - (v_off v + idx))) else m b p).
Proof.
  intros NE. destruct (fetch_rows_ok n m s row v idx NE) as (m1 & E & H). exists m1. eexists. split; [exact E|]. unfold copy_rows. replace (sg_buf s =? v_buf v) with false by lia. cbn [andb]. split; [reflexivity|]. split; [exact H|].
  intros b p. cbv beta. rewrite !H. replace (sg_buf s =? v_buf v) with false by lia. cbn [andb]. destruct ((b =? v_buf v) && (v_off v + idx <=? p) && (p <? v_off v + idx + n)); reflexivity.
Qed.

Lemma map_nth' {B} (f : nat -> B) n i : nth_error (map f (seq 0 n)) i = if i <? n then Some (f i) else None.
Proof.
  rewrite nth_error_map. destruct (i <? n) eqn:Q.
  - rewrite nth_error_nth' with (d := 0) by (rewrite seq_length; lia). rewrite seq_nth by lia. reflexivity.
  - replace (nth_error (seq 0 n) i) with (@None nat); [reflexivity|]. symmetry. apply nth_error_None. rewrite seq_length. lia.
Qed.
Lemma seg_rows_len m s : length (seg_rows m s) = sg_count s.
Proof. unfold seg_rows. rewrite map_length, seq_length. reflexivity. Qed.
Notation srows m g := (flat_map (seg_rows m) g).
Lemma rows_len m g : length (srows m g) = list_sum (map sg_count g).
Proof. induction g as [|s g IH]; [reflexivity|]. cbn. rewrite app_length, seg_rows_len. f_equal. exact IH. Qed.
Lemma seg_rows_ext m m' s : (forall p, m' (sg_buf s) p = m (sg_buf s) p) -> seg_rows m' s = seg_rows m s.
Proof. intros H. unfold seg_rows. apply map_ext. exact H. Qed.
Lemma rows_ext m m' g b0 : (forall b p, b <> b0 -> m' b p = m b p) -> (forall s, In s g -> sg_buf s <> b0) -> srows m' g = srows m g.
Proof.
  intros H F. induction g as [|s g IH]; [reflexivity|]. cbn [flat_map]. rewrite IH by (intros s' Hs; apply F; right; exact Hs). f_equal. apply seg_rows_ext. intros p. apply H. apply F. left. reflexivity.
Qed.
Lemma eta v : v_idx v = None -> flat_vec (v_buf v) (v_off v) = v.
Proof. destruct v as [b o i]. cbn. intros ->. reflexivity. Qed.

(** reading a vector *)
Notation cells m v l := (map (fun p => m (v_buf v) (v_off v + p)) l).
Lemma gather_ok m v l : gather m v l (length l) = Ok (cells m v l).
Proof. induction l as [|p l IH]; [reflexivity|]. cbn [length gather map]. rewrite IH. reflexivity. Qed.
Lemma gather_pre m v l : forall n, n <= length l -> gather m v l n = Ok (cells m v (firstn n l)).
Proof. induction l as [|p l IH]; intros [|n] H; try reflexivity; [cbn in H; lia|]. cbn [firstn gather map]. rewrite IH by (cbn in H; lia). reflexivity. Qed.
Lemma read_flat m v n : v_idx v = None -> read m v n = Ok (cells m v (seq 0 n)).
Proof. intros E. unfold read. rewrite E. rewrite <- (seq_length n 0) at 2. apply gather_ok. Qed.

(** copying scan over several segments *)
Lemma flat_ok str g : forall m v start idx n, chained start g -> v_idx v = None -> (forall s, In s g -> sg_buf s <> v_buf v) -> n <= list_sum (map sg_count g) -> exists m', scan_segs str false m g start v idx n = Ok (m', v, idx + n) /\
  (forall b p, b <> v_buf v \/ p < v_off v + idx -> m' b p = m b p) /\ map (fun i => m' (v_buf v) (v_off v + idx + i)) (seq 0 n) = firstn n (srows m g).
Proof.
  induction g as [|s g IH]; intros m v start idx n C VI F B; cbn [scan_segs].
  - cbn in B. exists m. replace n with 0 by lia. rewrite Nat.add_0_r. auto.
  - destruct C as [C1 C2]. cbv zeta. replace (sg_start s + sg_count s - start) with (sg_count s) by lia. replace (start - sg_start s) with 0 by lia.
    assert (NE : sg_buf s <> v_buf v) by (apply F; left; reflexivity). assert (F' : forall s', In s' g -> sg_buf s' <> v_buf v) by (intros s' Hs; apply F; right; exact Hs).
    change (list_sum (map sg_count (s :: g))) with (sg_count s + list_sum (map sg_count g)) in B.
    set (k := Nat.min n (sg_count s)) in *.
    assert (ST : exists m1, (if k =? 0 then Ok (m, v) else do m1 <- fetch_rows m s 0 v idx k; seg_scan str false m1 s 0 v idx k) = Ok (m1, v) /\
       forall b p, m1 b p = if (b =? v_buf v) && (v_off v + idx <=? p) && (p <? v_off v + idx + k) then m (sg_buf s) (p - (v_off v + idx)) else m b p).
    { destruct (k =? 0) eqn:K; [exists m; split; [reflexivity|]; intros b p; replace ((b =? v_buf v) && (v_off v + idx <=? p) && (p <? v_off v + idx + k)) with false by lia; reflexivity|].
      destruct (part_ok k m s 0 v idx NE) as (m1 & m2 & E1 & E2 & _ & H). exists m2. rewrite E1. cbn [rbind]. unfold seg_scan. rewrite (eta v VI). split; [|exact H]. destruct str; rewrite E2; reflexivity. }
    destruct ST as (m1 & E1 & H1). rewrite E1. cbn [rbind].
    assert (R1 : srows m1 g = srows m g). { apply (rows_ext m m1 g (v_buf v)); [|exact F']. intros b p Hb. rewrite H1. replace (b =? v_buf v) with false by lia. reflexivity. }
    destruct (n - k =? 0) eqn:Q.
    + exists m1. replace k with n by lia. split; [reflexivity|]. split.
      * intros b p Hb. rewrite H1. replace ((b =? v_buf v) && (v_off v + idx <=? p) && (p <? v_off v + idx + k)) with false by lia. reflexivity.
      * cbn [flat_map]. rewrite firstn_app, seg_rows_len. replace (n - sg_count s) with 0 by lia. cbn [firstn]. rewrite app_nil_r. unfold seg_rows. rewrite firstn_map, firstn_seq. replace (Nat.min n (sg_count s)) with n by lia.
        apply map_ext_in. intros i Hi. apply in_seq in Hi. rewrite H1. replace ((v_buf v =? v_buf v) && (v_off v + idx <=? v_off v + idx + i) && (v_off v + idx + i <? v_off v + idx + k)) with true by lia. f_equal. lia.
    + assert (KC : k = sg_count s) by lia. destruct (IH m1 v (start + k) (idx + k) (n - k)) as (m' & E2 & H2 & V2); [rewrite KC; exact C2|exact VI|exact F'|lia|]. exists m'. rewrite E2. split; [replace (idx + k + (n - k)) with (idx + n) by lia; reflexivity|]. split.
      * intros b p Hb. rewrite H2 by lia. rewrite H1. replace ((b =? v_buf v) && (v_off v + idx <=? p) && (p <? v_off v + idx + k)) with false by lia. reflexivity.
      * cbn [flat_map]. rewrite firstn_app, seg_rows_len. rewrite firstn_all2 by (rewrite seg_rows_len; lia). rewrite <- KC, <- R1, <- V2. replace n with (k + (n - k)) at 1 by lia. rewrite seq_app, map_app. f_equal.
        -- unfold seg_rows. rewrite <- KC. apply map_ext_in. intros i Hi. apply in_seq in Hi. rewrite H2 by lia. rewrite H1. replace ((v_buf v =? v_buf v) && (v_off v + idx <=? v_off v + idx + i) && (v_off v + idx + i <? v_off v + idx + k)) with true by lia. f_equal. lia.
        -- replace (0 + k) with (k + 0) by lia. rewrite seq_shift_map. rewrite map_map. apply map_ext. intros i. f_equal. lia.
Qed.

(** the whole of one segment *)
Lemma scan_one str entire m s v n : sg_buf s <> v_buf v -> 0 < n <= sg_count s -> exists m1, scan_segs str entire m [s] (sg_start s) v 0 n = Ok (m1, if str then v else if entire then flat_vec (sg_buf s) 0 else flat_vec (v_buf v) (v_off v), n) /\
  forall b p, m1 b p = if (b =? v_buf v) && (v_off v <=? p) && (p <? v_off v + n) then m (sg_buf s) (p - v_off v) else m b p.
Proof.
  intros NE B. cbn [scan_segs]. cbv zeta. replace (sg_start s + sg_count s - sg_start s) with (sg_count s) by lia. replace (Nat.min n (sg_count s)) with n by lia. replace (n =? 0) with false by lia. rewrite !Nat.sub_diag.
  destruct (part_ok n m s 0 v 0 NE) as (m1 & m2 & E1 & E2 & H & H2). rewrite E1. cbn [rbind Nat.eqb]. unfold seg_scan.
  assert (X : forall h, (forall b p, h b p = if (b =? v_buf v) && (v_off v + 0 <=? p) && (p <? v_off v + 0 + n) then m (sg_buf s) (0 + (p - (v_off v + 0))) else m b p) -> forall b p, h b p = if (b =? v_buf v) && (v_off v <=? p) && (p <? v_off v + n) then m (sg_buf s) (p - v_off v) else m b p).
  { intros h Hh b p. rewrite Hh. rewrite !Nat.add_0_r, Nat.add_0_l. reflexivity. }
  destruct str; [|destruct entire].
  - exists m2. replace (if entire then 0 else 0) with 0 by (destruct entire; reflexivity). rewrite E2. cbn [rbind]. split; [reflexivity|apply X, H2].
  - exists m1. cbn [rbind]. split; [reflexivity|apply X, H].
  - exists m2. rewrite E2. cbn [rbind]. split; [reflexivity|apply X, H2].
Qed.
Lemma scan_more str entire m s r row v n : 0 < n <= sg_count s -> row = sg_start s -> scan_segs str entire m (s :: r) row v 0 n = scan_segs str entire m [s] row v 0 n.
Proof.
  intros B ->. cbn [scan_segs]. cbv zeta. replace (sg_start s + sg_count s - sg_start s) with (sg_count s) by lia. replace (Nat.min n (sg_count s)) with n by lia. rewrite !Nat.sub_diag. reflexivity.
Qed.

(** the updates *)
Lemma set_nth_len (l : list A) u : length (set_nth l u) = length l.
Proof. unfold set_nth. destruct (fst u <? length l) eqn:Q; [|reflexivity]. rewrite app_length, firstn_length. cbn [length]. rewrite skipn_length. lia. Qed.
Lemma set_nth_nth (l : list A) u i : nth_error (set_nth l u) i = if (i =? fst u) && (i <? length l) then Some (snd u) else nth_error l i.
Proof.
  unfold set_nth. destruct (fst u <? length l) eqn:Q; [|replace ((i =? fst u) && (i <? length l)) with false by lia; reflexivity]. assert (LF : length (firstn (fst u) l) = fst u) by (rewrite firstn_length; lia). destruct (lt_dec i (fst u)) as [Q1|Q1].
  - rewrite nth_error_app1 by lia. rewrite nth_error_firstn by lia. replace ((i =? fst u) && (i <? length l)) with false by lia. reflexivity.
  - rewrite nth_error_app2 by lia. rewrite LF. destruct (i =? fst u) eqn:Q2; cbn [andb].
    + replace (i - fst u) with 0 by lia. replace (i <? length l) with true by lia. reflexivity.
    + replace (i - fst u) with (S (i - S (fst u))) by lia. cbn [nth_error]. rewrite nth_error_skipn. f_equal. lia.
Qed.
Lemma upds_ok (us : list (nat * A)) v k : forall m, let m' := fold_left (fun h u => if fst u <? k then put h (v_buf v) (v_off v + fst u) (snd u) else h) us m in
  cells m' v (seq 0 k) = fold_left set_nth us (cells m v (seq 0 k)) /\ forall b p, b <> v_buf v -> m' b p = m b p.
Proof.
  induction us as [|u us IH]; intros m; [cbn; auto|]. cbn [fold_left]. cbv zeta. set (m1 := if fst u <? k then put m (v_buf v) (v_off v + fst u) (snd u) else m). destruct (IH m1) as [IH1 IH2]. cbv zeta in IH1, IH2. rewrite IH1. split.
  - f_equal. apply nth_error_ext. intros i. rewrite set_nth_nth, map_length, seq_length, !map_nth'. unfold m1. destruct (fst u <? k) eqn:Q.
    + unfold put. rewrite Nat.eqb_refl. cbn [andb]. replace (v_off v + i =? v_off v + fst u) with (i =? fst u) by lia. destruct (i <? k) eqn:Q2, (i =? fst u); reflexivity.
    + replace ((i =? fst u) && (i <? k)) with false by lia. reflexivity.
  - intros b p Hb. rewrite IH2 by exact Hb. unfold m1. destruct (fst u <? k); [|reflexivity]. unfold put. replace (b =? v_buf v) with false by lia. reflexivity.
Qed.

Lemma scan_ok m c v : well c -> fresh v c -> exists m' v', scan_column m c v (group_rows c) = Ok (m', v') /\ v_idx v' = None /\ cells m' v' (seq 0 (group_rows c)) = rows_of m c /\ forall b p, b <> v_buf v -> m' b p = m b p.
Proof.
  intros W [VI F]. unfold well, scan_column, scan_entire, rows_of, base_rows, group_rows, apart in *. destruct c as [str segs us]. cbn [c_segs c_upds c_str] in *. destruct segs as [|s g]; [destruct W|]. rewrite VI.
  assert (FL : exists m' v', (do '(m', v', k) <- scan_segs str false m (s :: g) (sg_start s) v 0 (list_sum (map sg_count (s :: g))); Ok (fold_left (fun h u => if fst u <? k then put h (v_buf v') (v_off v' + fst u) (snd u) else h) us m', v')) = Ok (m', v') /\
    v_idx v' = None /\ cells m' v' (seq 0 (list_sum (map sg_count (s :: g)))) = fold_left set_nth us (srows m (s :: g)) /\ forall b p, b <> v_buf v -> m' b p = m b p).
  { destruct (flat_ok str (s :: g) m v (sg_start s) 0 (list_sum (map sg_count (s :: g))) W VI F (le_n _)) as (m1 & E & H & V). rewrite E. cbn [rbind]. rewrite Nat.add_0_l in *. do 2 eexists. split; [reflexivity|]. split; [exact VI|].
    destruct (upds_ok us v (list_sum (map sg_count (s :: g))) m1) as [U1 U2]. cbv zeta in U1, U2. split.
    - rewrite U1. f_equal. rewrite firstn_all2 in V by (rewrite rows_len; lia). rewrite <- V. apply map_ext. intros i. rewrite Nat.add_0_r. reflexivity.
    - intros b p Hb. rewrite U2 by exact Hb. apply H. auto. }
  destruct us as [|u us]; [|exact FL]. destruct (list_sum (map sg_count (s :: g)) <=? sg_count s) eqn:Q; [|exact FL].
  destruct (list_sum (map sg_count (s :: g))) as [|n0] eqn:EN.
  { exists m, v. cbn [scan_segs]. cbv zeta. cbn [Nat.min Nat.eqb rbind Nat.sub]. split; [reflexivity|]. split; [exact VI|]. split; [|auto]. cbn [seq map fold_left]. symmetry. apply length_zero_iff_nil. rewrite rows_len. exact EN. }
  rewrite scan_more by (auto; lia). assert (NE : sg_buf s <> v_buf v) by (apply F; left; reflexivity). destruct (scan_one str true m s v (S n0) NE ltac:(lia)) as (m1 & E & H). rewrite E. cbn [rbind]. cbn [fold_left].
  assert (SR : srows m (s :: g) = seg_rows m s). { cbn [flat_map]. change (list_sum (map sg_count (s :: g))) with (sg_count s + list_sum (map sg_count g)) in EN. assert (X : srows m g = []) by (apply length_zero_iff_nil; rewrite rows_len; lia). rewrite X. apply app_nil_r. }
  assert (NC : S n0 = sg_count s). { change (list_sum (map sg_count (s :: g))) with (sg_count s + list_sum (map sg_count g)) in EN. lia. }
  do 2 eexists. split; [reflexivity|]. split; [destruct str; [exact VI|reflexivity]|]. rewrite SR. split.
  - unfold seg_rows. rewrite <- NC. apply map_ext_in. intros i Hi. apply in_seq in Hi. destruct str; [|cbn [flat_vec v_buf v_off]]; rewrite H.
    + replace ((v_buf v =? v_buf v) && (v_off v <=? v_off v + i) && (v_off v + i <? v_off v + S n0)) with true by lia. f_equal. lia.
    + replace (sg_buf s =? v_buf v) with false by lia. reflexivity.
  - intros b p Hb. rewrite H. replace (b =? v_buf v) with false by lia. reflexivity.
Qed.
Lemma rows_of_len m c : length (rows_of m c) = group_rows c.
Proof. unfold rows_of. assert (H : forall us (l : list A), length (fold_left set_nth us l) = length l). { induction us as [|u us IH]; intros l; [reflexivity|]. cbn. rewrite IH. apply set_nth_len. } rewrite H. unfold base_rows. apply rows_len. Qed.
Lemma chunk_ok m c sel v : well c -> fresh v c -> inside (rows_of m c) sel -> exists m' v', scan_chunk m c sel v = Ok (m', v', chosen (rows_of m c) sel) /\ forall b p, b <> v_buf v -> m' b p = m b p.
Proof.
  intros W F I. destruct (scan_ok m c v W F) as (m' & v' & E & VI & R & O). unfold scan_chunk. rewrite E. cbn [rbind]. destruct sel as [s|]; cbn [chosen inside] in *.
  - unfold slice. rewrite VI. cbn [rbind]. unfold read. cbn [v_idx]. rewrite gather_ok. cbn [rbind v_buf v_off]. do 2 eexists. split; [|exact O]. do 2 f_equal.
    clear E. rewrite rows_of_len in I. induction s as [|p s IH]; [reflexivity|]. cbn [map flat_map]. rewrite IH by (intros q Hq; apply I; right; exact Hq).
    assert (X : nth_error (rows_of m c) p = Some (m' (v_buf v') (v_off v' + p))). { rewrite <- R, map_nth'. specialize (I p (or_introl eq_refl)). replace (p <? group_rows c) with true by lia. reflexivity. } rewrite X. reflexivity.
  - rewrite read_flat by exact VI. cbn [rbind]. rewrite R. eauto.
Qed.
Lemma scan_each_ok (l : list (column A * option (list nat) * vec)) : forall m, (forall c sel v, In (c, sel, v) l -> well c /\ inside (rows_of m c) sel /\ forall c' sel' v', In (c', sel', v') l -> fresh v' c) ->
  exists m', scan_each m l = Ok (m', map (fun p => chosen (rows_of m (fst (fst p))) (snd (fst p))) l) /\ forall c sel v, In (c, sel, v) l -> rows_of m' c = rows_of m c.
Proof.
  intros m H. assert (G : forall l', incl l' l -> forall h, (forall c sel v, In (c, sel, v) l -> rows_of h c = rows_of m c) -> exists m', scan_each h l' = Ok (m', map (fun p => chosen (rows_of m (fst (fst p))) (snd (fst p))) l') /\ forall c sel v, In (c, sel, v) l -> rows_of m' c = rows_of m c).
  { induction l' as [|[ [c sel] v] l' IH]; intros I h R; [exists h; split; [reflexivity|exact R]|]. cbn [scan_each]. assert (Hg : In (c, sel, v) l) by (apply I; left; reflexivity). destruct (H c sel v Hg) as (C & IN & F).
    destruct (chunk_ok h c sel v C (F c sel v Hg)) as (m1 & v1 & E & M); [rewrite (R c sel v Hg); exact IN|]. rewrite E. cbn [rbind].
    destruct (IH (fun x Hx => I x (or_intror Hx)) m1) as (m' & E2 & R2).
    { intros c' sel' v' Hc. rewrite <- (R c' sel' v' Hc). unfold rows_of. f_equal. apply (rows_ext h m1 (c_segs c') (v_buf v) M). destruct (H c' sel' v' Hc) as (_ & _ & F'). apply (F' c sel v Hg). }
    rewrite E2. cbn [rbind]. exists m'. split; [|exact R2]. cbn [map fst snd]. rewrite (R c sel v Hg). reflexivity. }
  apply G; [apply incl_refl|reflexivity].
Qed.

(** one vector for all row groups *)
Definition all (s : seg) : column A * option (list nat) := (numbers s, None).
Lemma numbers_one m s v : v_idx v = None -> sg_buf s <> v_buf v -> 0 < sg_count s -> exists m1, scan_chunk m (numbers s) None v = Ok (m1, flat_vec (sg_buf s) 0, seg_rows m s) /\
  forall b p, m1 b p = if (b =? v_buf v) && (v_off v <=? p) && (p <? v_off v + sg_count s) then m (sg_buf s) (p - v_off v) else m b p.
Proof.
  intros VI NE B. unfold scan_chunk, scan_column, scan_entire, numbers, group_rows. cbn [c_segs c_upds c_str map]. rewrite VI. replace (list_sum [sg_count s]) with (sg_count s) by (cbn; lia). rewrite Nat.leb_refl.
  destruct (scan_one false true m s v (sg_count s) NE ltac:(lia)) as (m1 & E & H). rewrite E. cbn [rbind]. rewrite read_flat by reflexivity. cbn [rbind]. exists m1. split; [|exact H]. do 2 f_equal. unfold seg_rows. apply map_ext. intros i. cbn [flat_vec v_buf v_off]. rewrite H. replace (sg_buf s =? v_buf v) with false by lia. reflexivity.
Qed.
Lemma shift_ok gs : forall m v, plain gs -> v_idx v = None -> (forall s, In s gs -> sg_buf s <> v_buf v) -> exists m', scan_groups m (map all gs) v = Ok (m', map (seg_rows m) gs) /\
  map (seg_rows m') gs = shifted (map (seg_rows m) gs) /\
  (forall b p, b <> v_buf v -> (forall s, In s gs -> b <> sg_buf s) -> m' b p = m b p) /\
  (forall p, m' (v_buf v) p = match gs with s :: _ => if (v_off v <=? p) && (p <? v_off v + sg_count s) then m (sg_buf s) (p - v_off v) else m (v_buf v) p | [] => m (v_buf v) p end).
Proof.
  induction gs as [|s gs IH]; intros m v P VI F.
  - exists m. cbn. auto.
  - destruct P as (P1 & P2 & P3). assert (NE : sg_buf s <> v_buf v) by (apply F; left; reflexivity). cbn [map scan_groups all].
    destruct (numbers_one m s v VI NE P1) as (m1 & E1 & H1). rewrite E1. cbn [rbind].
    destruct (IH m1 (flat_vec (sg_buf s) 0) P3 eq_refl) as (m' & E2 & SH & O & V); [intros s' Hs; apply (P2 s' Hs)|]. rewrite E2. cbn [rbind]. exists m'. cbn [flat_vec v_buf v_off] in *.
    assert (M1 : forall s', In s' (s :: gs) -> forall p, m1 (sg_buf s') p = m (sg_buf s') p). { intros s' Hs p. rewrite H1. specialize (F s' Hs). replace (sg_buf s' =? v_buf v) with false by lia. reflexivity. }
    assert (R1 : map (seg_rows m1) gs = map (seg_rows m) gs). { apply map_ext_in. intros s' Hs. apply seg_rows_ext. apply M1. right. exact Hs. }
    rewrite R1 in *.
    split; [reflexivity|].
    split; [|split].
    + rewrite SH. destruct gs as [|s2 gs].
      * cbn [map shifted]. f_equal. apply seg_rows_ext. intros p. rewrite V. apply M1. left. reflexivity.
      * cbn [map]. cbn [shifted]. f_equal. assert (L2 : sg_count s2 <= sg_count s) by (apply (P2 s2); left; reflexivity). rewrite seg_rows_len.
        apply nth_error_ext. intros i. unfold seg_rows. rewrite map_nth'. rewrite V. destruct (lt_dec i (sg_count s2)) as [Q|Q].
        -- rewrite nth_error_app1 by (rewrite map_length, seq_length; exact Q). rewrite map_nth'. replace (i <? sg_count s) with true by lia. replace (i <? sg_count s2) with true by lia. replace ((0 <=? i) && (i <? 0 + sg_count s2)) with true by lia. rewrite Nat.sub_0_r. f_equal. apply M1. right. left. reflexivity.
        -- rewrite nth_error_app2 by (rewrite map_length, seq_length; lia). rewrite map_length, seq_length. rewrite nth_error_skipn. rewrite map_nth'. replace (sg_count s2 + (i - sg_count s2)) with i by lia. replace ((0 <=? i) && (i <? 0 + sg_count s2)) with false by lia. destruct (i <? sg_count s); [|reflexivity]. f_equal. apply M1. left. reflexivity.
    + intros b p Hb Ho. rewrite O; [|apply Ho; left; reflexivity|intros s' Hs; apply Ho; right; exact Hs]. rewrite H1. replace (b =? v_buf v) with false by lia. reflexivity.
    + intros p. rewrite O; [|auto|intros s' Hs E; apply (F s'); [right; exact Hs|congruence]]. rewrite H1. rewrite Nat.eqb_refl. cbn [andb]. reflexivity.
Qed.
Lemma write_result m s v i a : fresh v (@numbers A s) -> i < sg_count s -> exists m' v', scan_chunk m (numbers s) None v = Ok (m', v', seg_rows m s) /\ seg_rows m' s = seg_rows m s /\
  seg_rows (set_value m' v' i a) s = set_nth (seg_rows m s) (i, a).
Proof.
  intros [VI F] B. assert (NE : sg_buf s <> v_buf v) by (apply F; left; reflexivity). destruct (numbers_one m s v VI NE ltac:(lia)) as (m1 & E & H). exists m1. eexists. split; [exact E|].
  assert (R : forall p, m1 (sg_buf s) p = m (sg_buf s) p). { intros p. rewrite H. replace (sg_buf s =? v_buf v) with false by lia. reflexivity. }
  split; [apply seg_rows_ext; exact R|]. apply nth_error_ext. intros k. rewrite set_nth_nth, seg_rows_len. cbn [fst snd]. unfold seg_rows. rewrite !map_nth'. unfold set_value, put. cbn [flat_vec v_buf v_off]. rewrite Nat.eqb_refl, Nat.add_0_l. cbn [andb]. rewrite R. destruct (k <? sg_count s), (k =? i); reflexivity.
Qed.
(** strings after a dictionary *)
Lemma strings_after m s1 s2 sel v : fresh v (@strings A s1) -> sg_buf s2 <> v_buf v -> 0 < sg_count s1 -> (forall p, In p sel -> p < sg_count s1) -> 0 < sg_count s2 <= length sel ->
  exists m', scan_groups m [(strings s1, Some sel); (strings s2, None)] v =
    Ok (m', [chosen (seg_rows m s1) (Some sel); map (fun p => if p <? sg_count s2 then m (sg_buf s2) p else m (sg_buf s1) p) (firstn (sg_count s2) sel)]).
Proof.
  intros [VI F] N2 B1 IN B2. assert (N1 : sg_buf s1 <> v_buf v) by (apply F; left; reflexivity). cbn [scan_groups]. unfold scan_chunk, scan_column, scan_entire, strings, group_rows. cbn [c_segs c_upds c_str map]. rewrite VI.
  replace (list_sum [sg_count s1]) with (sg_count s1) by (cbn; lia). replace (list_sum [sg_count s2]) with (sg_count s2) by (cbn; lia). rewrite Nat.leb_refl.
  destruct (scan_one true true m s1 v (sg_count s1) N1 ltac:(lia)) as (m1 & E1 & H1). rewrite E1. cbn [rbind]. unfold slice. rewrite VI. cbn [rbind]. unfold read at 1. cbn [v_idx]. rewrite gather_ok. cbn [rbind v_buf v_off v_idx].
  set (v2 := {| v_buf := v_buf v; v_off := v_off v; v_idx := Some sel |}). destruct (scan_one true true m1 s2 v2 (sg_count s2) N2 ltac:(lia)) as (m2 & E2 & H2). rewrite E2. cbn [rbind]. unfold read. cbn [v2 v_idx]. rewrite gather_pre by lia. cbn [rbind]. exists m2. do 3 f_equal; [|f_equal].
  - cbn [chosen]. clear - IN H1. induction sel as [|p sel IH]; [reflexivity|]. cbn [map flat_map]. rewrite IH by (intros q Hq; apply IN; right; exact Hq). specialize (IN p (or_introl eq_refl)). unfold seg_rows. rewrite map_nth'. replace (p <? sg_count s1) with true by lia. rewrite H1. replace ((v_buf v =? v_buf v) && (v_off v <=? v_off v + p) && (v_off v + p <? v_off v + sg_count s1)) with true by lia. replace (v_off v + p - v_off v) with p by lia. reflexivity.
  - apply map_ext_in. intros p Hp. assert (Hp' : In p sel) by (rewrite <- (firstn_skipn (sg_count s2)); apply in_or_app; auto). specialize (IN p Hp'). rewrite H2. cbn [v2 v_buf v_off]. rewrite Nat.eqb_refl. cbn [andb]. replace (v_off v <=? v_off v + p) with true by lia. cbn [andb]. replace (v_off v + p <? v_off v + sg_count s2) with (p <? sg_count s2) by lia. replace (v_off v + p - v_off v) with p by lia. rewrite !H1. replace (sg_buf s2 =? v_buf v) with false by lia. cbn [andb]. rewrite Nat.eqb_refl. cbn [andb]. replace (v_off v <=? v_off v + p) with true by lia. replace (v_off v + p <? v_off v + sg_count s1) with true by lia. replace (v_off v + p - v_off v) with p by lia. reflexivity.
Qed.
(** updates after a dictionary *)
Lemma updates_after m s1 s2 us sel v : fresh v (@numbers A s1) -> sg_buf s2 <> v_buf v -> sg_buf s2 <> sg_buf s1 -> 0 < sg_count s1 -> (forall p, In p sel -> p < sg_count s1) -> 0 < sg_count s2 ->
  exists m', scan_groups m [(numbers s1, Some sel); ({| c_str := false; c_segs := [s2]; c_upds := us |}, None)] v = Ok (m', [chosen (seg_rows m s1) (Some sel); seg_rows m s2]).
Proof.
  intros [VI F] N2 N12 B1 IN B2. assert (N1 : sg_buf s1 <> v_buf v) by (apply F; left; reflexivity). cbn [scan_groups]. unfold scan_chunk, scan_column, scan_entire, numbers, group_rows. cbn [c_segs c_upds c_str map]. rewrite VI.
  replace (list_sum [sg_count s1]) with (sg_count s1) by (cbn; lia). replace (list_sum [sg_count s2]) with (sg_count s2) by (cbn; lia). rewrite Nat.leb_refl.
  destruct (scan_one false true m s1 v (sg_count s1) N1 ltac:(lia)) as (m1 & E1 & H1). rewrite E1. cbn [rbind]. unfold slice. cbn [flat_vec v_idx rbind v_buf v_off]. unfold read at 1. cbn [v_idx]. rewrite gather_ok. cbn [rbind v_buf v_off v_idx].
  set (v2 := {| v_buf := sg_buf s1; v_off := 0; v_idx := Some sel |}). destruct (scan_one false true m1 s2 v2 (sg_count s2) N12 ltac:(lia)) as (m2 & E2 & H2). rewrite E2. cbn [rbind]. rewrite read_flat by reflexivity. cbn [rbind flat_vec v_buf v_off]. exists m2. do 3 f_equal; [|f_equal].
  - cbn [chosen]. clear - IN H1 N1. induction sel as [|p sel IH]; [reflexivity|]. cbn [map flat_map]. rewrite IH by (intros q Hq; apply IN; right; exact Hq). specialize (IN p (or_introl eq_refl)). unfold seg_rows. rewrite map_nth'. replace (p <? sg_count s1) with true by lia. rewrite H1. replace (sg_buf s1 =? v_buf v) with false by lia. reflexivity.
  - unfold seg_rows. apply map_ext. intros i. rewrite H2. cbn [v2 v_buf v_off]. replace (sg_buf s2 =? sg_buf s1) with false by lia. cbn [andb]. rewrite H1. replace (sg_buf s2 =? v_buf v) with false by lia. reflexivity.
Qed.
End Proofs.
