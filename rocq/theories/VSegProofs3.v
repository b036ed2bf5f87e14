From Coq Require Import ZifyNat ZifyN ZifyBool.
From Verif Require Import Bytes Outcome ValidModel ValidSpec ValidProofs VSegModel VSegSpec VSegProofs VSegProofs2.
Ltac Zify.zify_post_hook ::= Z.div_mod_to_equations.
Local Open Scope nat_scope.
Local Opaque N.testbit MAX_ENTRY.

Lemma content_length c : length (content c) = list_sum (map g_count c).
Proof.
  induction c as [|g c IH]; [reflexivity|]. rewrite content_cons, app_length, seg_rows_length, IH. reflexivity.
Qed.

(** Any place a scan can stand at: [before] are the segments done with, [i] the row within the next one. *)
Lemma read_at size l : 128 <= size -> exists c, append_chunks size [] l = Ok c /\ list_sum (map g_count c) = length (all_rows l) /\
  forall (flat : bool) before c' i n m, c = before ++ c' -> match c' with [] => True | g :: _ => i <= g_count g end ->
  let row := list_sum (map g_count before) + i in
  n <= r_count m -> row + n <= length (all_rows l) -> rmask_ok m -> clean m ->
  exists m', (if flat then column_scan_flat c' i n m else column_scan c' i n m) = Ok m' /\ r_count m' = r_count m /\
    (forall j, j < n -> rvalid m' j = nth (row + j) (all_rows l) true) /\
    (forall j, j < r_count m -> rvalid m' j = false -> nth (row + j) (all_rows l) true = false).
Proof.
  intros big. destruct (append_chunks_ok size big l [] ltac:(constructor) ltac:(constructor)) as (c & E & G & _ & R).
  change (content [] ++ all_rows l) with (all_rows l) in R. exists c. split; [exact E|]. split; [rewrite <- R, content_length; reflexivity|].
  intros flat before c' i n m Ec Hi row Hc Hl Mok Cl. rewrite <- R in *. subst c. apply Forall_app in G. destruct G as [_ G].
  rewrite content_app, app_length, content_length in Hl.
  destruct (column_scan_ok flat c' i n m G Mok Cl Hc ltac:(lia) Hi) as (m' & X & _ & Hc' & A1 & A2).
  assert (Nt : forall j, nth (row + j) (content (before ++ c')) true = nth (i + j) (content c') true).
  { intros j. rewrite content_app, app_nth2; rewrite content_length; [f_equal; lia | lia]. }
  exists m'. split; [exact X|]. split; [exact Hc'|]. split; intros j Hj; rewrite Nt; auto.
Qed.

(** ** Taking appended rows back *)
Lemma fill_length from : forall ws i, length (fill from i ws) = length ws.
Proof. induction ws as [|w ws IH]; intros i; cbn; auto. Qed.
Lemma fill_nth from : forall ws i k, k < length ws -> nth k (fill from i ws) 0%N = fill_word from (i + k) (nth k ws 0%N).
Proof.
  induction ws as [|w ws IH]; intros i [|k] H; cbn [length fill nth] in *; try lia.
  - rewrite Nat.add_0_r. reflexivity.
  - rewrite IH by lia. f_equal. lia.
Qed.
Lemma fill_tb from ws j : Forall w64 ws -> j < 64 * length ws -> tb (fill from 0 ws) j = (8 * from <=? j) || tb ws j.
Proof.
  intros F H. unfold tb. rewrite fill_nth by lia. cbn [Nat.add]. unfold fill_word.
  destruct (Nat.leb_spec from (8 * (j / 64))).
  - rewrite tb_max. lia.
  - destruct (Nat.leb_spec (8 * S (j / 64)) from).
    + replace (8 * from <=? j) with false by lia. reflexivity.
    + rewrite N.lor_spec, tb_upper by lia. rewrite orb_comm. f_equal. lia.
Qed.
Lemma fill_w64 from : forall ws i, Forall w64 ws -> Forall w64 (fill from i ws).
Proof.
  induction ws as [|w ws IH]; intros i F; inversion F; subst; cbn [fill]; constructor; auto. unfold fill_word.
  destruct (_ <=? _); [reflexivity|]. destruct (_ <=? _); [assumption|]. apply w64_lor; [assumption|apply w64_upper].
Qed.

Lemma fill_skip from ws ws' : length ws = length ws' -> (forall k, 8 * k < from -> nth k ws 0%N = nth k ws' 0%N) -> fill from 0 ws = fill from 0 ws'.
Proof.
  intros L H. apply nth_ext with (d := 0%N) (d' := 0%N); [rewrite !fill_length; exact L|]. intros k Hk. rewrite fill_length in Hk.
  rewrite !fill_nth by lia. cbn [Nat.add]. unfold fill_word. destruct (Nat.leb_spec from (8 * k)); [reflexivity|]. rewrite H by lia. reflexivity.
Qed.
Lemma set_valids_ok : forall k i ws, i + k <= length ws -> exists ws', set_valids k i ws = Ok ws' /\ length ws' = length ws /\
  forall q, q < i -> nth q ws' 0%N = nth q ws 0%N.
Proof.
  induction k as [|k IH]; intros i ws H; cbn [set_valids]; [exists ws; auto|].
  replace (i <? length ws) with true by lia. destruct (IH (S i) (upd i 1%N ws)) as (ws' & E & L & B); [rewrite upd_length; lia|].
  exists ws'. split; [exact E|]. split; [rewrite L; apply upd_length|]. intros q Hq. rewrite B, upd_nth by lia. replace (q =? i) with false by lia. reflexivity.
Qed.

(** Rows before [start] stay; what follows is as never used from the next multiple of 8 on. *)
Lemma revert_ok size g start : gok g -> sized size g -> start <= g_count g -> (start mod 8 = 0 \/ (start / 8 + 1) * 8 <= length (g_words g)) ->
  exists g', revert_append g start = Ok g' /\ g_count g' = start /\ length (g_words g') = length (g_words g) /\ Forall w64 (g_words g') /\
    seg_rows g' = firstn start (seg_rows g) /\
    (forall j, start <= j < 64 * length (g_words g) -> tb (g_words g') j = (8 * ((start + 7) / 8) <=? j) || tb (g_words g) j).
Proof.
  intros (Fw & Lw & Tw) Sz Hs Hd.
  assert (M : revert_append g start = Ok (Seg (fill ((start + 7) / 8) 0 (g_words g)) start)).
  { unfold revert_append. destruct (Nat.eqb_spec (start mod 8) 0) as [Z|Z].
    - cbn [rbind]. replace ((start + 7) / 8) with (start / 8) by lia. reflexivity.
    - cbv zeta. destruct Hd as [Hd|Hd]; [lia|]. destruct (set_valids_ok ((start / 8 + 1) * 8 - start) start (g_words g) ltac:(lia)) as (ws & -> & L & B).
      cbn [rbind]. replace ((start / 8 + 1) * 8 / 8) with ((start + 7) / 8) by lia. f_equal. f_equal. apply fill_skip; [exact L|].
      intros k Hk. apply B. lia. }
  rewrite M. eexists. split; [reflexivity|]. cbn [g_words g_count]. split; [reflexivity|]. split; [apply fill_length|]. split; [apply fill_w64; exact Fw|].
  split.
  - unfold seg_rows. cbn [g_words g_count]. rewrite firstn_map. replace (firstn start (seq 0 (g_count g))) with (seq 0 start).
    + apply map_ext_in. intros j Hj. apply in_seq in Hj. rewrite fill_tb by (auto; lia). replace (8 * ((start + 7) / 8) <=? j) with false by lia. reflexivity.
    + replace (g_count g) with (start + (g_count g - start)) by lia. rewrite seq_app, firstn_app, seq_length.
      rewrite firstn_all2 by (rewrite seq_length; lia). replace (start - start) with 0 by lia. cbn. rewrite app_nil_r. reflexivity.
  - intros j Hj. apply fill_tb; [exact Fw|lia].
Qed.

(** On a multiple of 8: as if the later rows had never been appended. *)
Lemma revert_append_back size g start u n : 128 <= size -> gok g -> sized size g -> start <= g_count g -> start mod 8 = 0 ->
  n <= max_tuples size - start ->
  exists g' g'', revert_append g start = Ok g' /\ append size g' u 0 n = Ok (g'', n) /\
    seg_rows g'' = firstn start (seg_rows g) ++ rows_of (u, n).
Proof.
  intros big G Sz Hs Z Hn. destruct (revert_ok size g start G Sz Hs ltac:(left; exact Z)) as (g' & E & C & L & F & R & B).
  assert (G' : gok g').
  { split; [exact F|]. destruct G as (_ & Lw & _). rewrite L. split; [lia|]. intros i Hi. rewrite B by lia. replace (8 * ((start + 7) / 8) <=? i) with true by lia. reflexivity. }
  assert (S' : sized size g') by (destruct Sz; split; lia).
  destruct (append_ok size big g' u 0 n G' S') as (g'' & A & _ & _ & R''). rewrite C in A. replace (Nat.min n (max_tuples size - start)) with n in A by lia.
  rewrite C in R''. replace (Nat.min n (max_tuples size - start)) with n in R'' by lia.
  exists g', g''. split; [exact E|]. split; [exact A|]. rewrite R'', R. reflexivity.
Qed.

Lemma holds_rows g rows : seg_rows g = rows -> holds g rows.
Proof.
  intros <-. split; [rewrite seg_rows_length; reflexivity|]. intros j Hj. rewrite seg_rows_length in Hj. rewrite seg_rows_nth by exact Hj. reflexivity.
Qed.
Lemma new_sized size : sized size (new_seg size).
Proof. unfold sized, new_seg. cbn [g_words g_count]. rewrite repeat_length. lia. Qed.

Lemma revert_keeps size u n start : 128 <= size -> n <= max_tuples size -> start <= n ->
  (start mod 8 = 0 \/ (start / 8 + 1) * 8 <= size / 8) ->
  exists g g', append size (new_seg size) u 0 n = Ok (g, n) /\ revert_append g start = Ok g' /\ holds g (rows_of (u, n)) /\ holds g' (firstn start (rows_of (u, n))).
Proof.
  intros big Hn Hs Hd. destruct (append_ok size big (new_seg size) u 0 n (new_seg_gok size big) (new_sized size)) as (g & A & G & Sz & R).
  change (g_count (new_seg size)) with 0 in A, R. replace (Nat.min n (max_tuples size - 0)) with n in A, R by lia.
  change (seg_rows (new_seg size)) with (@nil bool) in R. cbn [app] in R. change (map (vrow u) (seq 0 n)) with (rows_of (u, n)) in R.
  assert (C : g_count g = n) by (rewrite <- seg_rows_length, R; unfold rows_of; rewrite map_length; apply seq_length).
  destruct (revert_ok size g start G Sz ltac:(lia)) as (g' & E & _ & _ & _ & R' & _).
  { destruct Sz as [-> _]. exact Hd. }
  exists g, g'. split; [exact A|]. split; [exact E|]. split; apply holds_rows; [exact R|]. rewrite R', R. reflexivity.
Qed.
Lemma revert_again size u n start u' n' : 128 <= size -> n <= max_tuples size -> start <= n -> start mod 8 = 0 -> n' <= max_tuples size - start ->
  exists g g' g'', append size (new_seg size) u 0 n = Ok (g, n) /\ revert_append g start = Ok g' /\ append size g' u' 0 n' = Ok (g'', n') /\
    holds g'' (firstn start (rows_of (u, n)) ++ rows_of (u', n')).
Proof.
  intros big Hn Hs Hd Hn'. destruct (append_ok size big (new_seg size) u 0 n (new_seg_gok size big) (new_sized size)) as (g & A & G & Sz & R).
  change (g_count (new_seg size)) with 0 in A, R. replace (Nat.min n (max_tuples size - 0)) with n in A, R by lia.
  change (seg_rows (new_seg size)) with (@nil bool) in R. cbn [app] in R. change (map (vrow u) (seq 0 n)) with (rows_of (u, n)) in R.
  assert (C : g_count g = n) by (rewrite <- seg_rows_length, R; unfold rows_of; rewrite map_length; apply seq_length).
  destruct (revert_append_back size g start u' n' big G Sz ltac:(lia) Hd Hn') as (g' & g'' & E & A' & R').
  exists g, g', g''. split; [exact A|]. split; [exact E|]. split; [exact A'|]. apply holds_rows. rewrite R', R. reflexivity.
Qed.
