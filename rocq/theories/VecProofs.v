(** Proofs for VecModel: loops over cells and masks, copies. *)
From Verif Require Import Bytes Outcome IndexingModel VecModel VecSpec.
Require Import Lia.
Local Open Scope nat_scope.
Local Opaque VCAP.

(** ** Lists *)
Lemma nth_list_set {A} (l : list A) i x j :
  nth_error (list_set l i x) j = if (j =? i) && (i <? length l) then Some x else nth_error l j.
Proof.
  revert i j. induction l as [|y l IH]; intros i j.
  - destruct i; cbn; rewrite ?andb_false_r; destruct j; reflexivity.
  - destruct i as [|i], j as [|j]; cbn [list_set nth_error length Nat.eqb]; try reflexivity.
    rewrite IH. replace (S i <? S (length l)) with (i <? length l) by reflexivity. reflexivity.
Qed.
Lemma length_list_set {A} (l : list A) i x : length (list_set l i x) = length l.
Proof. revert i. induction l as [|y l IH]; intros [|i]; cbn; auto. Qed.
Lemma list_set_twice {A} (l : list A) i x y : list_set (list_set l i x) i y = list_set l i y.
Proof. revert i. induction l as [|z l IH]; intros [|i]; cbn; [reflexivity..|]. rewrite IH. reflexivity. Qed.
Lemma list_set_same {A} (l : list A) i x : nth_error l i = Some x -> list_set l i x = l.
Proof. revert i. induction l as [|z l IH]; intros [|i]; cbn; intros H; try discriminate; [congruence|]. rewrite IH; auto. Qed.
Lemma nth_ext' {A} (l l' : list A) : (forall i, nth_error l i = nth_error l' i) -> l = l'.
Proof.
  revert l'. induction l as [|x l IH]; intros [|y l'] H.
  - reflexivity.
  - specialize (H 0). discriminate.
  - specialize (H 0). discriminate.
  - f_equal; [specialize (H 0); cbn in H; congruence|]. apply IH. intros i. apply (H (S i)).
Qed.
Lemma nth_lt {A} (l : list A) i x : nth_error l i = Some x -> i < length l.
Proof. intros H. apply nth_error_Some. congruence. Qed.
Lemma nth_ex {A} (l : list A) i : i < length l -> exists x, nth_error l i = Some x.
Proof. intros H. destruct (nth_error l i) eqn:E; eauto. apply nth_error_None in E. lia. Qed.
Lemma nth_repeat' {A} (x : A) n i : i < n -> nth_error (repeat x n) i = Some x.
Proof. revert i. induction n; intros [|i] H; cbn; try lia; auto. apply IHn. lia. Qed.
Lemma nth_repeat_inv {A} (x y : A) n i : nth_error (repeat x n) i = Some y -> y = x.
Proof. revert i. induction n; intros [|i] H; cbn in H; try discriminate; [congruence|eauto]. Qed.
Lemma nth_skipn {A} (l : list A) n i : nth_error (skipn n l) i = nth_error l (n + i).
Proof. revert l. induction n; intros l; [reflexivity|]. destruct l; cbn; [destruct i; reflexivity|apply IHn]. Qed.
Lemma nth_firstn {A} (l : list A) n i : nth_error (firstn n l) i = if i <? n then nth_error l i else None.
Proof.
  revert l i. induction n; intros l i.
  - cbn. destruct i; reflexivity.
  - destruct l, i; cbn [firstn nth_error]; try reflexivity; [destruct (S i <? S n); reflexivity|]. rewrite IHn. reflexivity.
Qed.
Lemma pick_nth {A} (l : list A) ix l' : pick l ix = Some l' ->
  length l' = length ix /\ forall i x, nth_error l' i = Some x -> exists j, nth_error ix i = Some j /\ nth_error l j = Some x.
Proof.
  revert l'. induction ix as [|j ix IH]; cbn; intros l' H.
  - injection H as <-. split; [reflexivity|]. intros [|i] x E; discriminate.
  - destruct (nth_error l j) eqn:E; [|discriminate]. destruct (pick l ix) eqn:F; [|discriminate]. injection H as <-.
    destruct (IH _ eq_refl) as [L N]. split; [cbn; congruence|]. intros [|i] x G; cbn in G.
    + injection G as <-. exists j. auto.
    + apply N in G. exact G.
Qed.
Lemma get_index_some li i j : nth_error li i = Some j -> get_index (Some li) i = Ok j.
Proof. cbn. intros ->. reflexivity. Qed.

(** ** Masks *)
Definition mwf (m : mask) : Prop := match arr m with None => True | Some l => length l = cnt m end.
Lemma mset_ok m i b : mwf m -> i < cnt m ->
  exists m', mset m i b = Ok m' /\ mwf m' /\ cnt m' = cnt m /\
  forall q, q < cnt m -> row_ok m' q = if q =? i then Ok b else row_ok m q.
Proof.
  intros W H. unfold mset, mwf in *. destruct (arr m) as [l|] eqn:E.
  - replace (i <? length l) with true by (symmetry; apply Nat.ltb_lt; lia).
    eexists. split; [reflexivity|]. cbn [arr cnt]. rewrite length_list_set. split; [assumption|]. split; [reflexivity|].
    intros q Q. unfold row_ok. cbn [arr]. rewrite nth_list_set, E.
    replace (i <? length l) with true by (symmetry; apply Nat.ltb_lt; lia). rewrite andb_true_r. destruct (q =? i); reflexivity.
  - destruct b.
    + exists m. split; [reflexivity|]. rewrite E. split; [exact I|]. split; [reflexivity|]. intros q _.
      unfold row_ok. rewrite E. destruct (q =? i); reflexivity.
    + replace (i <? cnt m) with true by (symmetry; apply Nat.ltb_lt; lia).
      eexists. split; [reflexivity|]. cbn [arr cnt]. rewrite length_list_set, repeat_length. split; [reflexivity|]. split; [reflexivity|].
      intros q Q. unfold row_ok. cbn [arr]. rewrite nth_list_set, E, repeat_length.
      replace (i <? cnt m) with true by (symmetry; apply Nat.ltb_lt; lia). rewrite andb_true_r. destruct (q =? i); [reflexivity|].
      rewrite nth_repeat' by assumption. reflexivity.
Qed.

Lemma mcopy_loop_ok s ix soff toff : forall bs i t,
  mwf t -> toff + i + length bs <= cnt t ->
  (forall k b, nth_error bs k = Some b -> exists j, get_index ix (soff + (i + k)) = Ok j /\ row_ok s j = Ok b) ->
  exists t', mcopy_loop (length bs) i t s ix soff toff = Ok t' /\ mwf t' /\ cnt t' = cnt t /\
  forall q, q < cnt t -> row_ok t' q = if (toff + i <=? q) && (q <? toff + i + length bs)
                                       then match nth_error bs (q - (toff + i)) with Some b => Ok b | None => Err UB end else row_ok t q.
Proof.
  induction bs as [|b bs IH]; intros i t W L H; cbn [length mcopy_loop].
  - exists t. split; [reflexivity|]. split; [assumption|]. split; [reflexivity|]. intros q _.
    replace ((toff + i <=? q) && (q <? toff + i + 0)) with false; [reflexivity|].
    symmetry. apply andb_false_iff. rewrite Nat.leb_gt, Nat.ltb_ge. lia.
  - destruct (H 0 b eq_refl) as (j & G & R). rewrite Nat.add_0_r in G. rewrite G. cbn [rbind]. rewrite R. cbn [rbind].
    cbn [length] in L. destruct (mset_ok t (toff + i) b W) as (t1 & E1 & W1 & C1 & R1); [lia|]. rewrite E1. cbn [rbind].
    destruct (IH (S i) t1 W1) as (t2 & E2 & W2 & C2 & R2); [lia| |].
    { intros k c N. destruct (H (S k) c N) as (j' & G' & R'). exists j'. split; [|assumption]. rewrite <- G'. f_equal. lia. }
    exists t2. rewrite E2. split; [reflexivity|]. split; [assumption|]. split; [congruence|]. intros q Q. rewrite R2 by lia.
    rewrite C1 in *. destruct (Nat.eq_dec q (toff + i)) as [->|D].
    + replace ((toff + S i <=? toff + i) && (toff + i <? toff + S i + length bs)) with false
        by (symmetry; apply andb_false_iff; rewrite Nat.leb_gt; lia).
      rewrite R1, Nat.eqb_refl by lia.
      replace ((toff + i <=? toff + i) && (toff + i <? toff + i + S (length bs))) with true
        by (symmetry; apply andb_true_iff; rewrite Nat.leb_le, Nat.ltb_lt; lia).
      rewrite Nat.sub_diag. reflexivity.
    + replace ((toff + i <=? q) && (q <? toff + i + S (length bs))) with ((toff + S i <=? q) && (q <? toff + S i + length bs)).
      2:{ apply eq_true_iff_eq. rewrite !andb_true_iff, !Nat.leb_le, !Nat.ltb_lt. lia. }
      destruct ((toff + S i <=? q) && (q <? toff + S i + length bs)) eqn:E.
      * apply andb_true_iff in E. rewrite Nat.leb_le, Nat.ltb_lt in E. replace (q - (toff + i)) with (S (q - (toff + S i))) by lia. reflexivity.
      * rewrite R1 by lia. replace (q =? toff + i) with false by (symmetry; apply Nat.eqb_neq; assumption). reflexivity.
Qed.
Lemma mfill_ok toff b : forall n i t,
  mwf t -> toff + i + n <= cnt t ->
  exists t', mfill n i t b toff = Ok t' /\ mwf t' /\ cnt t' = cnt t /\
  forall q, q < cnt t -> row_ok t' q = if (toff + i <=? q) && (q <? toff + i + n) then Ok b else row_ok t q.
Proof.
  induction n as [|n IH]; intros i t W L; cbn [mfill].
  - exists t. split; [reflexivity|]. split; [assumption|]. split; [reflexivity|]. intros q _.
    replace ((toff + i <=? q) && (q <? toff + i + 0)) with false; [reflexivity|].
    symmetry. apply andb_false_iff. rewrite Nat.leb_gt, Nat.ltb_ge. lia.
  - destruct (mset_ok t (toff + i) b W) as (t1 & E1 & W1 & C1 & R1); [lia|]. rewrite E1. cbn [rbind].
    destruct (IH (S i) t1 W1) as (t2 & E2 & W2 & C2 & R2); [lia|].
    exists t2. rewrite E2. split; [reflexivity|]. split; [assumption|]. split; [congruence|]. intros q Q. rewrite R2 by lia.
    destruct (Nat.eq_dec q (toff + i)) as [->|D].
    + replace ((toff + S i <=? toff + i) && (toff + i <? toff + S i + n)) with false
        by (symmetry; apply andb_false_iff; rewrite Nat.leb_gt; lia).
      rewrite R1, Nat.eqb_refl by lia.
      replace ((toff + i <=? toff + i) && (toff + i <? toff + i + S n)) with true
        by (symmetry; apply andb_true_iff; rewrite Nat.leb_le, Nat.ltb_lt; lia). reflexivity.
    + replace ((toff + i <=? q) && (q <? toff + i + S n)) with ((toff + S i <=? q) && (q <? toff + S i + n)).
      2:{ apply eq_true_iff_eq. rewrite !andb_true_iff, !Nat.leb_le, !Nat.ltb_lt. lia. }
      destruct ((toff + S i <=? q) && (q <? toff + S i + n)) eqn:E; [reflexivity|].
      rewrite R1 by lia. replace (q =? toff + i) with false by (symmetry; apply Nat.eqb_neq; assumption). reflexivity.
Qed.

(** ** Cells *)
Lemma cells_lt h a cs : cells_of h a = Some cs -> a < length (mem h).
Proof. unfold cells_of. intros H. apply nth_error_Some. destruct (nth_error (mem h) a); congruence. Qed.
Lemma cells_set h a cs a' : a < length (mem h) -> cells_of (set_cells h a cs) a' = if a' =? a then Some cs else cells_of h a'.
Proof.
  intros L. unfold cells_of, set_cells. cbn [mem]. rewrite nth_list_set.
  replace (a <? length (mem h)) with true by (symmetry; apply Nat.ltb_lt; assumption). rewrite andb_true_r. destruct (a' =? a); reflexivity.
Qed.
Lemma set_cells_twice h a c d : set_cells (set_cells h a c) a d = set_cells h a d.
Proof. unfold set_cells. cbn [mem bufs]. rewrite list_set_twice. reflexivity. Qed.
Lemma set_cells_same h a cs : cells_of h a = Some cs -> set_cells h a cs = h.
Proof.
  unfold cells_of, set_cells. destruct h as [m b]. cbn [mem bufs]. intros H. rewrite list_set_same; [reflexivity|].
  destruct (nth_error m a) as [[x|]|]; congruence.
Qed.
Definition away (s : option (nat * nat)) (a : nat) : Prop := match s with Some (b, _) => b <> a | None => True end.
Lemma rdc_away h s a cs j : a < length (mem h) -> away s a -> rdc (set_cells h a cs) s j = rdc h s j.
Proof.
  intros L W. destruct s as [[b off]|]; [|reflexivity]. cbn [rdc]. rewrite cells_set by assumption.
  cbn in W. replace (b =? a) with false by (symmetry; apply Nat.eqb_neq; assumption). reflexivity.
Qed.
Lemma copy_data_ok s ix a soff toff : forall out i h cs,
  cells_of h a = Some cs -> away s a -> toff + i + length out <= length cs ->
  (forall k c, nth_error out k = Some c -> exists j, get_index ix (soff + (i + k)) = Ok j /\ rdc h s j = Ok c) ->
  exists cs', copy_data (length out) i h s ix (Some (a, 0)) soff toff = Ok (set_cells h a cs') /\ length cs' = length cs /\
  forall p, nth_error cs' p = if (toff + i <=? p) && (p <? toff + i + length out) then nth_error out (p - (toff + i)) else nth_error cs p.
Proof.
  induction out as [|c out IH]; intros i h cs C W L H; cbn [length copy_data].
  - exists cs. rewrite set_cells_same by assumption. split; [reflexivity|]. split; [reflexivity|]. intros p.
    replace ((toff + i <=? p) && (p <? toff + i + 0)) with false; [reflexivity|].
    symmetry. apply andb_false_iff. rewrite Nat.leb_gt, Nat.ltb_ge. lia.
  - destruct (H 0 c eq_refl) as (j & G & R). rewrite Nat.add_0_r in G. rewrite G. cbn [rbind]. rewrite R. cbn [rbind length] in *.
    cbn [wrc]. rewrite C. cbn [Nat.add]. replace (toff + i <? length cs) with true by (symmetry; apply Nat.ltb_lt; lia). cbn [rbind].
    pose proof (cells_lt _ _ _ C) as LT.
    destruct (IH (S i) (set_cells h a (list_set cs (toff + i) c)) (list_set cs (toff + i) c)) as (cs' & E & L' & N).
    { rewrite cells_set, Nat.eqb_refl by assumption. reflexivity. }
    { assumption. }
    { rewrite length_list_set. lia. }
    { intros k d Nk. destruct (H (S k) d Nk) as (j' & G' & R'). exists j'. split; [rewrite <- G'; f_equal; lia|].
      rewrite rdc_away by assumption. assumption. }
    exists cs'. rewrite E, set_cells_twice. split; [reflexivity|]. rewrite length_list_set in L'. split; [assumption|]. intros p. rewrite N.
    destruct (Nat.eq_dec p (toff + i)) as [->|D].
    + replace ((toff + S i <=? toff + i) && (toff + i <? toff + S i + length out)) with false
        by (symmetry; apply andb_false_iff; rewrite Nat.leb_gt; lia).
      rewrite nth_list_set, Nat.eqb_refl. replace (toff + i <? length cs) with true by (symmetry; apply Nat.ltb_lt; lia).
      replace ((toff + i <=? toff + i) && (toff + i <? toff + i + S (length out))) with true
        by (symmetry; apply andb_true_iff; rewrite Nat.leb_le, Nat.ltb_lt; lia).
      rewrite Nat.sub_diag. reflexivity.
    + replace ((toff + i <=? p) && (p <? toff + i + S (length out))) with ((toff + S i <=? p) && (p <? toff + S i + length out)).
      2:{ apply eq_true_iff_eq. rewrite !andb_true_iff, !Nat.leb_le, !Nat.ltb_lt. lia. }
      destruct ((toff + S i <=? p) && (p <? toff + S i + length out)) eqn:E2.
      * apply andb_true_iff in E2. rewrite Nat.leb_le, Nat.ltb_lt in E2. replace (p - (toff + i)) with (S (p - (toff + S i))) by lia. reflexivity.
      * rewrite nth_list_set. replace (p =? toff + i) with false by (symmetry; apply Nat.eqb_neq; assumption). reflexivity.
Qed.

(** ** Rows *)
Definition row_reads (h : heap) (o : own) (j : nat) (x : option Z) : Prop :=
  row_ok (msk o) j = Ok (present x) /\ exists c, rdc h (dat o) j = Ok c /\ (forall z, x = Some z -> c = Some z).
Definition reads (h : heap) (o : own) (l : list (option Z)) : Prop := forall i x, nth_error l i = Some x -> row_reads h o i x.
(** A vector rows can be written to: [c] of them, those of [l] were. *)
Definition target (h : heap) (o : own) (a : nat) (l : list (option Z)) (c : nat) : Prop :=
  dat o = Some (a, 0) /\ (exists cs, cells_of h a = Some cs /\ c <= length cs) /\ mwf (msk o) /\ c <= cnt (msk o) /\ reads h o l.

Lemma row_reads_ptr h o o' j x : dat o = dat o' -> msk o = msk o' -> row_reads h o j x -> row_reads h o' j x.
Proof. unfold row_reads. intros -> ->. auto. Qed.

Lemma collect {A B} (P : nat -> A -> B -> Prop) (l : list A) :
  (forall i x, nth_error l i = Some x -> exists y, P i x y) ->
  exists l' : list B, length l' = length l /\ forall i x y, nth_error l i = Some x -> nth_error l' i = Some y -> P i x y.
Proof.
  revert P. induction l as [|x l IH]; intros P H.
  - exists []. split; [reflexivity|]. intros [|i] x y E; discriminate.
  - destruct (H 0 x eq_refl) as (y & Hy). destruct (IH (fun i => P (S i))) as (l' & L & N).
    { intros i z E. apply (H (S i) z E). }
    exists (y :: l'). split; [cbn; congruence|]. intros [|i] a b E F; cbn in E, F.
    + injection E as <-. injection F as <-. assumption.
    + eapply N; eassumption.
Qed.

Lemma copy_rows_ok h s isc ix o a l c soff out :
  target h o a l c -> away (dat s) a -> length l + length out <= c ->
  (forall i x, nth_error out i = Some x -> exists j, get_index ix (soff + i) = Ok j /\ row_reads h s j x) ->
  (isc = true -> forall i x, nth_error out i = Some x -> row_ok (msk s) 0 = Ok (present x)) ->
  exists cs m, copy_rows h s isc ix (Flat o) soff (length l) (length out) =
               Ok (set_cells h a cs, Flat {| dat := dat o; msk := m; buf := buf o |}) /\
    target (set_cells h a cs) {| dat := dat o; msk := m; buf := buf o |} a (l ++ out) c.
Proof.
  intros (D & (cs & C & Lc) & W & Lm & R) A L H K. pose proof (cells_lt _ _ _ C) as LT. unfold copy_rows.
  destruct (length out =? 0) eqn:E0.
  { apply Nat.eqb_eq in E0. destruct out; [|discriminate]. exists cs, (msk o). rewrite set_cells_same by assumption.
    replace {| dat := dat o; msk := msk o; buf := buf o |} with o by (destruct o; reflexivity).
    split; [reflexivity|]. rewrite app_nil_r. split; [assumption|]. split; [eauto|]. auto. }
  apply Nat.eqb_neq in E0.
  (* mask *)
  assert (M : exists m, (if isc then do b <- row_ok (msk s) 0; mfill (length out) 0 (msk o) b (length l)
                         else mcopy (length out) (msk o) (msk s) ix soff (length l)) = Ok m /\
              mwf m /\ cnt m = cnt (msk o) /\
              forall q, q < cnt (msk o) -> row_ok m q = if (length l <=? q) && (q <? length l + length out)
                        then match nth_error out (q - length l) with Some x => Ok (present x) | None => Err UB end else row_ok (msk o) q).
  { destruct isc.
    - destruct (nth_ex out 0) as (x0 & N0); [lia|]. rewrite (K eq_refl _ _ N0). cbn [rbind].
      destruct (mfill_ok (length l) (present x0) (length out) 0 (msk o) W) as (m & E & W' & C' & Q); [lia|].
      exists m. split; [assumption|]. split; [assumption|]. split; [assumption|]. intros q Hq. rewrite Q by assumption.
      rewrite Nat.add_0_r. destruct ((length l <=? q) && (q <? length l + length out)) eqn:B; [|reflexivity].
      apply andb_true_iff in B. rewrite Nat.leb_le, Nat.ltb_lt in B. destruct (nth_ex out (q - length l)) as (x & Nx); [lia|].
      rewrite Nx. pose proof (K eq_refl _ _ Nx) as E1. rewrite (K eq_refl _ _ N0) in E1. congruence.
    - destruct (mcopy_loop_ok (msk s) ix soff (length l) (map present out) 0 (msk o) W) as (m & E & W' & C' & Q).
      { rewrite map_length. lia. }
      { intros k b Nk. rewrite nth_error_map in Nk. destruct (nth_error out k) eqn:Nx; [|discriminate]. injection Nk as <-.
        destruct (H _ _ Nx) as (j & G & (Rj & _)). exists j. split; [exact G|assumption]. }
      rewrite map_length in E, Q. unfold mcopy. destruct (arr (msk s)) as [sl|] eqn:As; [|destruct (arr (msk o)) as [ol|] eqn:Ao].
      1,2: exists m; split; [assumption|]; split; [assumption|]; split; [assumption|]; intros q Hq; rewrite Q by assumption;
           rewrite Nat.add_0_r; rewrite nth_error_map; destruct (nth_error out (q - length l)); reflexivity.
      exists (msk o). split; [reflexivity|]. split; [assumption|]. split; [reflexivity|]. intros q Hq.
      destruct ((length l <=? q) && (q <? length l + length out)) eqn:B; [|reflexivity].
      apply andb_true_iff in B. rewrite Nat.leb_le, Nat.ltb_lt in B. destruct (nth_ex out (q - length l)) as (x & Nx); [lia|].
      rewrite Nx. destruct (H _ _ Nx) as (j & _ & (Rj & _)). unfold row_ok in Rj. rewrite As in Rj. unfold row_ok. rewrite Ao. congruence. }
  destruct M as (m & Em & Wm & Cm & Qm). rewrite Em. cbn [rbind].
  (* cells *)
  destruct (collect (fun i x c => exists j, get_index ix (soff + i) = Ok j /\ rdc h (dat s) j = Ok c /\ (forall z, x = Some z -> c = Some z)) out) as (oc & Lo & No).
  { intros i x Nx. destruct (H _ _ Nx) as (j & G & (_ & c' & Rc & Z)). exists c', j. auto. }
  destruct (copy_data_ok (dat s) ix a soff (length l) oc 0 h cs C A) as (cs' & E & L' & N).
  { lia. }
  { intros k d Nk. destruct (nth_ex out k) as (x & Nx). { apply nth_lt in Nk. lia. } destruct (No _ _ _ Nx Nk) as (j & G & Rj & _). exists j. auto. }
  rewrite Lo in E, N. rewrite D, E. cbn [rbind]. exists cs', m. split; [reflexivity|].
  split; [reflexivity|]. split. { exists cs'. rewrite cells_set, Nat.eqb_refl by assumption. split; [reflexivity|lia]. }
  split; [assumption|]. split; [cbn [msk]; lia|].
  intros i x Nx. pose proof (nth_lt _ _ _ Nx) as Li. rewrite app_length in Li. unfold row_reads. cbn [msk dat].
  rewrite Qm by lia. cbn [rdc]. rewrite cells_set, Nat.eqb_refl by assumption. rewrite Nat.add_0_l, N.
  rewrite !Nat.add_0_r. destruct (Nat.lt_ge_cases i (length l)) as [B|B].
  - replace (length l <=? i) with false by (symmetry; apply Nat.leb_gt; assumption). cbn [andb].
    rewrite nth_error_app1 in Nx by assumption. destruct (R _ _ Nx) as (R1 & c' & R2 & Z). split; [assumption|].
    rewrite D in R2. cbn [rdc] in R2. rewrite C, Nat.add_0_l in R2. destruct (nth_error cs i) as [d|]; [|discriminate]. exists d. split; [reflexivity|].
    injection R2 as <-. assumption.
  - replace ((length l <=? i) && (i <? length l + length out)) with true by (symmetry; apply andb_true_iff; rewrite Nat.leb_le, Nat.ltb_lt; lia).
    rewrite nth_error_app2 in Nx by assumption. rewrite Nx. split; [reflexivity|].
    destruct (nth_ex oc (i - length l)) as (d & Nd). { apply nth_lt in Nx. lia. }
    rewrite Nd. exists d. split; [reflexivity|]. destruct (No _ _ _ Nx Nd) as (_ & _ & _ & Z). assumption.
Qed.

(** ** Forms *)
Inductive good (h : heap) : form -> vec -> list (option Z) -> Prop :=
| g_flat o l : reads h o l -> good h Plain (Flat o) l
| g_const o b x l : arr (msk o) = Some b -> length l <= length b -> row_reads h o 0 x -> Forall (eq x) l ->
    (forall i, 0 < i < length b -> nth_error b i = Some true) -> good h (Const (length b)) (Constant o) l
| g_sel o q li l : dat o = dat q -> msk o = msk q -> length li = length l ->
    (forall i x, nth_error l i = Some x -> exists j, nth_error li i = Some j /\ row_reads h q j x) ->
    good h Selection (Dict o (Some li) (Flat q)) l
| g_seq o a d n l : l = numbers a d n -> forallb (fun i => within (a + d * Z.of_nat i)%Z) (seq 0 n) = true ->
    arr (msk o) = None -> good h Sequence (Seq o a d n) l.

Lemma row_value h o j x : row_reads h o j x ->
  (do b <- row_ok (msk o) j; if b then do z <- rd h (dat o) j; Ok (Some z) else Ok None) = Ok x.
Proof.
  intros (R & c & E & Z). rewrite R. cbn [rbind]. destruct x as [z|]; cbn [present]; [|reflexivity].
  unfold rd. rewrite E. cbn [rbind]. rewrite (Z z eq_refl). reflexivity.
Qed.
Lemma nth_numbers a d n i x : nth_error (numbers a d n) i = Some x -> i < n /\ x = Some (a + d * Z.of_nat i)%Z.
Proof.
  unfold numbers. rewrite nth_error_map. intros H. destruct (nth_error (seq 0 n) i) as [j|] eqn:E; [|discriminate].
  pose proof (nth_lt _ _ _ E) as L. rewrite seq_length in L. split; [assumption|].
  assert (E' : nth_error (seq 0 n) i = Some (0 + i)).
  { rewrite (nth_error_nth' _ 0) by (rewrite seq_length; assumption). rewrite seq_nth by assumption. reflexivity. }
  rewrite E' in E. injection E as <-. injection H as <-. reflexivity.
Qed.
Lemma fit_within z : within z = true -> fit z = Ok z.
Proof. unfold within, fit. intros ->. reflexivity. Qed.
Lemma numbers_within a d n i : forallb (fun i => within (a + d * Z.of_nat i)%Z) (seq 0 n) = true -> i < n -> within (a + d * Z.of_nat i)%Z = true.
Proof. intros H L. rewrite forallb_forall in H. apply H. apply in_seq. lia. Qed.

Lemma good_value h f v l i x : good h f v l -> nth_error l i = Some x -> value h v i = Ok x.
Proof.
  intros G N. destruct G as [o l R|o b y l Eb L R F B|o q li l D M L R|o a d n l -> W A]; unfold value; cbn [locate rbind own_of].
  - apply row_value. auto.
  - rewrite Forall_forall in F. rewrite <- (F x) by (eapply nth_error_In; eassumption). apply row_value. assumption.
  - destruct (R _ _ N) as (j & Nj & Rj). rewrite (get_index_some _ _ _ Nj). cbn [rbind locate]. rewrite D, M. apply row_value. assumption.
  - apply nth_numbers in N. destruct N as (Li & ->). rewrite fit_within by (eapply numbers_within; eassumption). reflexivity.
Qed.

Lemma slice_ok li : forall n ix i,
  (forall k, k < n -> exists p, get_index ix (i + k) = Ok p /\ p < length li) ->
  exists r, slice_loop (Some li) ix i n = Ok r /\ length r = n /\
  forall k p, k < n -> get_index ix (i + k) = Ok p -> nth_error r k = nth_error li p.
Proof.
  induction n as [|n IH]; intros ix i H; cbn [slice_loop].
  - exists []. split; [reflexivity|]. split; [reflexivity|]. intros; lia.
  - destruct (H 0) as (p & E & L); [lia|]. rewrite Nat.add_0_r in E. rewrite E. cbn [rbind].
    destruct (nth_ex li p L) as (y & Ny). rewrite (get_index_some _ _ _ Ny). cbn [rbind].
    destruct (IH ix (S i)) as (r & Er & Lr & Nr).
    { intros k Hk. destruct (H (S k)) as (p' & E' & L'); [lia|]. exists p'. split; [|assumption]. rewrite <- E'. f_equal. lia. }
    rewrite Er. cbn [rbind]. exists (y :: r). split; [reflexivity|]. split; [cbn; congruence|]. intros [|k] p' Hk Ep; cbn [nth_error].
    + rewrite Nat.add_0_r in Ep. rewrite E in Ep. injection Ep as <-. congruence.
    + apply Nr; [lia|]. rewrite <- Ep. f_equal. lia.
Qed.

(** Rows picked from a vector that is a selection already. *)
Lemma slice_sel_good h f v l ix l' n :
  good h f v l -> f <> Sequence -> pick l ix = Some l' -> n = length ix -> (forall b, f = Const b -> length ix <= b) ->
  exists v', slice_sel v (Some ix) n = Ok v' /\ good h (match f with Plain => Selection | _ => f end) v' l' /\ dat (own_of v') = dat (own_of v).
Proof.
  intros G NS P -> LB. destruct (pick_nth _ _ _ P) as (Lp & Np).
  destruct G as [o l R|o b y l Eb L R F B|o q li l D M L R|o a d k l -> W A]; cbn [slice_sel own_of].
  - eexists. split; [reflexivity|]. split; [|reflexivity]. apply g_sel; [reflexivity|reflexivity|congruence|]. intros i x Ni. destruct (Np _ _ Ni) as (j & J1 & J2). eauto.
  - eexists. split; [reflexivity|]. split; [|reflexivity]. eapply g_const; [eassumption| |eassumption| |assumption].
    + rewrite Lp. apply LB. reflexivity.
    + apply Forall_forall. intros z Hz. apply In_nth_error in Hz. destruct Hz as (i & Ni). destruct (Np _ _ Ni) as (j & _ & J2).
      rewrite Forall_forall in F. apply F. eapply nth_error_In; eassumption.
  - destruct (slice_ok li (length ix) (Some ix) 0) as (r & Er & Lr & Nr).
    { intros k Hk. destruct (nth_ex l' k) as (x & Nx); [lia|]. destruct (Np _ _ Nx) as (j & J1 & J2). exists j. split; [apply get_index_some; assumption|].
      apply nth_lt in J2. lia. }
    unfold slice. rewrite Er. cbn [rbind]. eexists. split; [reflexivity|]. split; [|reflexivity]. apply g_sel; [assumption|assumption|congruence|].
    intros i x Ni. destruct (Np _ _ Ni) as (j & J1 & J2). destruct (R _ _ J2) as (p & P1 & P2). exists p. split; [|assumption].
    rewrite (Nr i j); [assumption| |apply get_index_some; assumption]. apply nth_lt in Ni. lia.
  - congruence.
Qed.

Lemma nth_seq s n i : i < n -> nth_error (seq s n) i = Some (s + i).
Proof. intros L. rewrite (nth_error_nth' _ 0) by (rewrite seq_length; assumption). rewrite seq_nth by assumption. reflexivity. Qed.
Lemma pick_seq {A} (l : list A) : forall n s, s + n <= length l -> pick l (seq s n) = Some (firstn n (skipn s l)).
Proof.
  induction n as [|n IH]; intros s L; [reflexivity|]. cbn [seq pick]. destruct (nth_ex l s) as (x & N); [lia|]. rewrite N, IH by lia.
  f_equal. assert (E : skipn s l = x :: skipn (S s) l).
  { clear - N. revert l N. induction s as [|s IH]; intros [|y l] N; try discriminate; cbn in N |- *; [injection N as ->; reflexivity|]. apply IH. assumption. }
  rewrite E. reflexivity.
Qed.

Lemma slice_range_good h f v l a b :
  good h f v l -> f <> Sequence -> a <= b <= length l ->
  exists v', slice_range v a b = Ok v' /\ good h f v' (firstn (b - a) (skipn a l)).
Proof.
  intros G NS L. unfold slice_range. replace (b <? a) with false by (symmetry; apply Nat.ltb_ge; lia).
  assert (P : pick l (seq a (b - a)) = Some (firstn (b - a) (skipn a l))) by (apply pick_seq; lia).
  assert (LF : length (firstn (b - a) (skipn a l)) = b - a) by (rewrite firstn_length, skipn_length; lia).
  inversion G as [o l0 R|o bb y l0 Eb Lb R F B|o q li l0 D M Ll R|o s d k l0 E W A]; subst.
  - destruct (a =? 0) eqn:E0.
    + apply Nat.eqb_eq in E0. subst. eexists. split; [reflexivity|]. apply g_flat. intros i x N. cbn [skipn] in N. rewrite nth_firstn in N.
      destruct (i <? b - 0); [|discriminate]. auto.
    + apply Nat.eqb_neq in E0.
      destruct (nth_ex l 0) as (x0 & N0); [lia|]. destruct (R _ _ N0) as (_ & c0 & Ed & _).
      assert (M : exists m, mslice (msk o) a (b - a) = Ok m /\ forall i, i < b - a -> row_ok m i = row_ok (msk o) (a + i)).
      { unfold mslice. destruct (arr (msk o)) as [bl|] eqn:Eb.
        - assert (Lm : b <= length bl).
          { destruct (nth_ex l (b - 1)) as (x1 & N1); [lia|]. destruct (R _ _ N1) as (Rk & _). unfold row_ok in Rk. rewrite Eb in Rk.
            destruct (nth_error bl (b - 1)) eqn:N2; [|discriminate]. apply nth_lt in N2. lia. }
          replace (a + (b - a) <=? length bl) with true by (symmetry; apply Nat.leb_le; lia).
          eexists. split; [reflexivity|]. intros i Hi. unfold row_ok. cbn [arr]. rewrite Eb, nth_firstn.
          replace (i <? b - a) with true by (symmetry; apply Nat.ltb_lt; assumption). rewrite nth_skipn. reflexivity.
        - eexists. split; [reflexivity|]. intros i Hi. unfold row_ok. rewrite Eb. reflexivity. }
      destruct M as (m & Em & Qm). rewrite Em. cbn [rbind]. destruct (dat o) as [[home k]|] eqn:Edat; [|discriminate].
      eexists. split; [reflexivity|]. apply g_flat. intros i x N. rewrite nth_firstn in N. destruct (i <? b - a) eqn:Hi; [|discriminate].
      apply Nat.ltb_lt in Hi. rewrite nth_skipn in N. destruct (R _ _ N) as (R1 & c & R2 & Z). split; cbn [msk dat].
      * rewrite Qm; assumption.
      * exists c. split; [|assumption]. rewrite Edat in R2. cbn [rdc] in R2 |- *. rewrite <- Nat.add_assoc. assumption.
  - eexists. split; [reflexivity|]. eapply g_const; [eassumption| |eassumption| |assumption]. { lia. }
    apply Forall_forall. intros z Hz. rewrite Forall_forall in F. apply F.
    rewrite <- (firstn_skipn a l). apply in_or_app. right. rewrite <- (firstn_skipn (b - a) (skipn a l)). apply in_or_app. left. assumption.
  - destruct (slice_sel_good h Selection _ _ _ _ (b - a) G NS P) as (v' & E & G' & _); [rewrite seq_length; reflexivity|discriminate|]. eauto.
  - congruence.
Qed.

(** ** New vectors *)
Lemma cells_alloc h cs h' a b : alloc h cs = (h', a, b) ->
  a = length (mem h) /\ b = length (bufs h) /\ cells_of h' a = Some cs /\ nth_error (bufs h') b = Some a /\
  (forall a' c, cells_of h a' = Some c -> cells_of h' a' = Some c) /\
  (forall b' a', nth_error (bufs h) b' = Some a' -> nth_error (bufs h') b' = Some a') /\ length (mem h') = S (length (mem h)).
Proof.
  unfold alloc. intros H. injection H as <- <- <-. split; [reflexivity|]. split; [reflexivity|]. unfold cells_of. cbn [mem bufs].
  split. { rewrite nth_error_app2 by lia. rewrite Nat.sub_diag. reflexivity. }
  split. { rewrite nth_error_app2 by lia. rewrite Nat.sub_diag. reflexivity. }
  split. { intros a' c E. destruct (nth_error (mem h) a') eqn:N; [|discriminate]. rewrite nth_error_app1 by (eapply nth_lt; eassumption). rewrite N. assumption. }
  split. { intros b' a' E. rewrite nth_error_app1 by (eapply nth_lt; eassumption). assumption. }
  rewrite app_length. cbn. lia.
Qed.
Definition grows (h h' : heap) : Prop := forall a c, cells_of h a = Some c -> cells_of h' a = Some c.
Lemma grows_reads h h' o j x : grows h h' -> row_reads h o j x -> row_reads h' o j x.
Proof.
  intros G (R & c & E & Z). split; [assumption|]. exists c. split; [|assumption]. destruct (dat o) as [[a k]|]; [|discriminate]. cbn [rdc] in *.
  destruct (cells_of h a) eqn:C; [|discriminate]. rewrite (G _ _ C). assumption.
Qed.
Lemma grows_good h h' f v l : grows h h' -> good h f v l -> good h' f v l.
Proof.
  intros G H. destruct H as [o l R|o b y l Eb L R F B|o q li l D M L R|o a d n l -> W A].
  - apply g_flat. intros i x N. eapply grows_reads; eauto.
  - eapply g_const; eauto. eapply grows_reads; eauto.
  - apply g_sel; auto. intros i x N. destruct (R _ _ N) as (j & J & Rj). exists j. split; [assumption|]. eapply grows_reads; eauto.
  - apply g_seq; auto.
Qed.
Lemma new_vec_ok h capacity :
  exists h' o b, new_vec h capacity = (h', Flat o) /\ target h' o (length (mem h)) [] capacity /\ buf o = Some b /\
  nth_error (bufs h') b = Some (length (mem h)) /\ grows h h' /\
  (forall b' a', nth_error (bufs h) b' = Some a' -> nth_error (bufs h') b' = Some a') /\ length (mem h') = S (length (mem h)).
Proof.
  unfold new_vec. destruct (alloc h (repeat (Some 0%Z) capacity)) as [[h' a] b] eqn:E.
  destruct (cells_alloc _ _ _ _ _ E) as (Ha & Hb & C & N & G & Gb & L). rewrite Ha in *. clear Ha a.
  eexists h', _, b. split; [reflexivity|].
  split.
  { split; [reflexivity|]. split. { eexists. split; [eassumption|]. rewrite repeat_length. lia. }
    cbn [msk]. destruct (VCAP <? capacity) eqn:V.
    - split. { unfold mwf, mresize. cbn [arr cnt]. apply repeat_length. }
      split; [unfold mresize; cbn [arr cnt]; lia|]. intros [|i] x Hx; discriminate.
    - split; [exact I|]. split; [cbn [cnt]; apply Nat.ltb_ge in V; assumption|]. intros [|i] x Hx; discriminate. }
  split; [reflexivity|]. split; [assumption|]. split; [exact G|]. split; assumption.
Qed.

Lemma set_value_ok h o a l c x :
  target h o a l c -> length l < c ->
  exists cs m, set_value h (Flat o) (length l) x = Ok (set_cells h a cs, Flat {| dat := dat o; msk := m; buf := buf o |}) /\
  target (set_cells h a cs) {| dat := dat o; msk := m; buf := buf o |} a (l ++ [x]) c.
Proof.
  intros (D & (cs & C & Lc) & W & Lm & R) L. pose proof (cells_lt _ _ _ C) as LT. cbn [set_value].
  destruct (mset_ok (msk o) (length l) (present x) W) as (m & E & W' & C' & Q); [lia|]. rewrite E. cbn [rbind].
  assert (K : exists cs', (match x with None => Ok (h, Flat {| dat := dat o; msk := m; buf := buf o |})
                                    | Some z => do h' <- wrc h (dat o) (length l) (Some z); Ok (h', Flat {| dat := dat o; msk := m; buf := buf o |}) end)
             = Ok (set_cells h a cs', Flat {| dat := dat o; msk := m; buf := buf o |}) /\ length cs' = length cs /\
             (forall z, x = Some z -> nth_error cs' (length l) = Some (Some z)) /\ forall i, i <> length l -> nth_error cs' i = nth_error cs i).
  { destruct x as [z|].
    - rewrite D. cbn [wrc]. rewrite C. cbn [Nat.add]. replace (length l <? length cs) with true by (symmetry; apply Nat.ltb_lt; lia). cbn [rbind].
      exists (list_set cs (length l) (Some z)). split; [reflexivity|]. split; [apply length_list_set|]. split.
      + intros z' Z. injection Z as <-. rewrite nth_list_set, Nat.eqb_refl. replace (length l <? length cs) with true by (symmetry; apply Nat.ltb_lt; lia). reflexivity.
      + intros i Hi. rewrite nth_list_set. replace (i =? length l) with false by (symmetry; apply Nat.eqb_neq; assumption). reflexivity.
    - exists cs. rewrite set_cells_same by assumption. split; [reflexivity|]. split; [reflexivity|]. split; [discriminate|auto]. }
  destruct K as (cs' & Ek & Lk & K1 & K2). exists cs', m. split; [exact Ek|].
  split; [assumption|]. split. { exists cs'. rewrite cells_set, Nat.eqb_refl by assumption. split; [reflexivity|lia]. }
  split; [assumption|]. split; [cbn [msk]; lia|]. intros i y N. pose proof (nth_lt _ _ _ N) as Li. rewrite app_length in Li. cbn [length] in Li.
  unfold row_reads. cbn [msk dat]. rewrite Q by lia. rewrite D. cbn [rdc]. rewrite cells_set, Nat.eqb_refl by assumption. cbn [Nat.add].
  destruct (Nat.eq_dec i (length l)) as [->|Ne].
  - rewrite Nat.eqb_refl. rewrite nth_error_app2, Nat.sub_diag in N by lia. injection N as <-. split; [reflexivity|].
    destruct (nth_ex cs' (length l)) as (d & Nd); [lia|]. exists d. rewrite Nd. split; [reflexivity|]. intros z Z. specialize (K1 z Z). congruence.
  - replace (i =? length l) with false by (symmetry; apply Nat.eqb_neq; assumption). rewrite nth_error_app1 in N by lia.
    destruct (R _ _ N) as (R1 & d & R2 & Z). split; [assumption|]. exists d. split; [|assumption]. rewrite K2 by assumption.
    rewrite D in R2. cbn [rdc] in R2. rewrite C in R2. assumption.
Qed.
Lemma set_col_ok : forall xs h o a l c,
  target h o a l c -> length l + length xs <= c ->
  exists cs m, set_col h (Flat o) (length l) xs = Ok (set_cells h a cs, Flat {| dat := dat o; msk := m; buf := buf o |}) /\
  target (set_cells h a cs) {| dat := dat o; msk := m; buf := buf o |} a (l ++ xs) c.
Proof.
  induction xs as [|x xs IH]; intros h o a l c T L; cbn [set_col].
  - destruct T as (D & (cs & C & Lc) & W & Lm & R). exists cs, (msk o). rewrite set_cells_same by assumption.
    replace {| dat := dat o; msk := msk o; buf := buf o |} with o by (destruct o; reflexivity). split; [reflexivity|].
    rewrite app_nil_r. split; [assumption|]. split; [eauto|]. auto.
  - cbn [length] in L. destruct (set_value_ok h o a l c x T) as (cs & m & E & T1); [lia|]. rewrite E. cbn [rbind].
    destruct (IH _ _ _ _ _ T1) as (cs' & m' & E' & T2). { rewrite app_length. cbn [length]. lia. }
    rewrite app_length in E'. cbn [length] in E'. rewrite Nat.add_comm in E'. cbn [Nat.add] in E'. rewrite E'. cbn [dat buf].
    cbn [dat buf] in T2. rewrite set_cells_twice in T2 |- *. exists cs', m'. split; [reflexivity|]. rewrite <- app_assoc in T2. assumption.
Qed.

(** ** Copies of vectors in any form *)
Lemma copy_good h f v l o a tl c ix fl soff toff :
  good h f v l -> f <> Sequence -> target h o a tl c -> away (dat (own_of v)) a ->
  (forall i x, nth_error fl i = Some x -> exists p, get_index ix i = Ok p /\ nth_error l p = Some x) ->
  soff <= length fl -> length tl + (length fl - soff) <= c -> toff = length tl ->
  (forall b, f = Const b -> soff = 0 \/ length fl <= VCAP) ->
  exists cs m, copy h v (Flat o) ix (length fl) soff toff (length fl - soff) =
     Ok (set_cells h a cs, Flat {| dat := dat o; msk := m; buf := buf o |}) /\
     target (set_cells h a cs) {| dat := dat o; msk := m; buf := buf o |} a (tl ++ skipn soff fl) c.
Proof.
  intros G NS T A H Ls Lc -> K. assert (LS : length (skipn soff fl) = length fl - soff) by apply skipn_length.
  destruct G as [q l R|q b y l Eb L R F B|q q' li l D M L R|q s d n l -> W Ar]; cbn [copy own_of] in *.
  - rewrite <- LS. apply copy_rows_ok; [assumption|assumption|lia| |discriminate].
    intros i x N. rewrite nth_skipn in N. destruct (H _ _ N) as (p & P1 & P2). eauto.
  - rewrite <- LS. apply copy_rows_ok; [assumption|assumption|lia| |].
    + intros i x N. pose proof (nth_lt _ _ _ N) as Li. rewrite LS in *. rewrite nth_skipn in N. destruct (H _ _ N) as (p & P1 & P2). exists 0.
      rewrite Forall_forall in F. rewrite <- (F x) by (eapply nth_error_In; eassumption). split; [|assumption].
      unfold zeros. cbn [get_index]. rewrite nth_repeat'; [reflexivity|].
      destruct (length fl - soff <=? VCAP) eqn:V; destruct (K _ eq_refl) as [->|]; [apply Nat.leb_le in V|apply Nat.leb_le in V|apply Nat.leb_gt in V|apply Nat.leb_gt in V]; lia.
    + intros _ i x N. rewrite nth_skipn in N. destruct (H _ _ N) as (p & P1 & P2).
      rewrite Forall_forall in F. rewrite <- (F x) by (eapply nth_error_In; eassumption). apply R.
  - destruct (slice_ok li (length fl) ix 0) as (r & Er & Lr & Nr).
    { intros k Hk. destruct (nth_ex fl k Hk) as (x & Nx). destruct (H _ _ Nx) as (p & P1 & P2). exists p. split; [assumption|]. apply nth_lt in P2. lia. }
    unfold slice. rewrite Er. cbn [rbind copy]. rewrite <- LS. apply copy_rows_ok; [assumption|congruence|lia| |discriminate].
    intros i x N. rewrite nth_skipn in N. destruct (H _ _ N) as (p & P1 & P2). destruct (R _ _ P2) as (j & J1 & J2). exists j. split; [|assumption].
    apply get_index_some. rewrite (Nr (soff + i) p); [assumption| |assumption]. apply nth_lt in N. assumption.
  - congruence.
Qed.

(** The rows of a vector in new memory. *)
Lemma copy_new h f v l soff :
  good h f v l -> f <> Sequence -> away (dat (own_of v)) (length (mem h)) -> soff <= length l ->
  (forall b, f = Const b -> soff = 0 \/ length l <= VCAP) -> forall capacity, length l - soff <= capacity ->
  exists h1 h2 t o b, new_vec h capacity = (h1, t) /\ copy_sel h1 v t None (length l) soff 0 = Ok (h2, Flat o) /\
    target h2 o (length (mem h)) (skipn soff l) capacity /\ buf o = Some b /\ nth_error (bufs h2) b = Some (length (mem h)) /\
    (forall b' a', nth_error (bufs h) b' = Some a' -> nth_error (bufs h2) b' = Some a') /\
    length (mem h2) = S (length (mem h)) /\ grows h h2.
Proof.
  intros G NS A Ls K capacity Lc. destruct (new_vec_ok h capacity) as (h1 & o & b & E & T & Hb & Nb & Gr & Gb & Lm). rewrite E.
  assert (G1 : good h1 f v l) by (eapply grows_good; eassumption).
  destruct (copy_good h1 f v l o (length (mem h)) [] capacity None l soff 0 G1 NS T A) as (cs & m & Ec & T').
  { intros i x N. exists i. split; [reflexivity|assumption]. } { assumption. } { cbn. lia. } { reflexivity. } { assumption. }
  exists h1, (set_cells h1 (length (mem h)) cs), (Flat o), {| dat := dat o; msk := m; buf := buf o |}, b.
  split; [reflexivity|]. split; [exact Ec|]. split; [exact T'|]. split; [exact Hb|]. split; [exact Nb|]. split; [exact Gb|].
  split. { unfold set_cells. cbn [mem]. rewrite length_list_set. exact Lm. }
  intros a' c' C. destruct (Nat.eq_dec a' (length (mem h))) as [->|Ne]. { apply cells_lt in C. lia. }
  rewrite cells_set by lia. replace (a' =? length (mem h)) with false by (symmetry; apply Nat.eqb_neq; assumption). apply Gr. assumption.
Qed.
Lemma good_away h f v l : good h f v l -> f <> Sequence -> l <> [] -> away (dat (own_of v)) (length (mem h)).
Proof.
  intros G NS NE. destruct l as [|x l]; [congruence|]. clear NE.
  assert (K : exists o j y, dat o = dat (own_of v) /\ row_reads h o j y).
  { inversion G as [o l0 R|o bb y l0 Eb Lb R F B|o q li l0 D M Ll R|o s d k l0 E W A]; subst; cbn [own_of].
    - exists o, 0, x. auto.
    - exists o, 0, y. auto.
    - destruct (R 0 x eq_refl) as (j & _ & Rj). exists q, j, x. auto.
    - congruence. }
  destruct K as (o & j & y & <- & (_ & c & E & _)). destruct (dat o) as [[a k]|]; [|exact I]. cbn in *. destruct (cells_of h a) eqn:C; [|discriminate].
  apply cells_lt in C. lia.
Qed.

(** ** One vector through its uses *)
Definition inb (h : heap) (v : vec) : Prop := match dat (own_of v) with Some (a, _) => a < length (mem h) | None => True end.
Lemma inb_away h v : inb h v -> away (dat (own_of v)) (length (mem h)).
Proof. unfold inb. destruct (dat (own_of v)) as [[a k]|]; cbn; lia. Qed.
Lemma inb_more h h' v : inb h v -> length (mem h) <= length (mem h') -> inb h' v.
Proof. unfold inb. destruct (dat (own_of v)) as [[a k]|]; lia. Qed.

Lemma seq_cells_ok : forall n i a d, (forall k, k < n -> within (a + d * Z.of_nat (i + k))%Z = true) ->
  exists cs, seq_cells n i a d = Ok cs /\ length cs = n /\ forall k, k < n -> nth_error cs k = Some (Some (a + d * Z.of_nat (i + k))%Z).
Proof.
  induction n as [|n IH]; intros i a d H; cbn [seq_cells].
  - exists []. split; [reflexivity|]. split; [reflexivity|]. intros; lia.
  - pose proof (H 0 ltac:(lia)) as H0. rewrite Nat.add_0_r in H0. rewrite (fit_within _ H0). cbn [rbind].
    destruct (IH (S i) a d) as (cs & E & L & N).
    { intros k Hk. replace (S i + k) with (i + S k) by lia. apply H. lia. }
    rewrite E. cbn [rbind]. eexists. split; [reflexivity|]. split; [cbn; congruence|]. intros [|k] Hk; cbn [nth_error].
    + rewrite Nat.add_0_r. reflexivity.
    + rewrite N by lia. replace (S i + k) with (i + S k) by lia. reflexivity.
Qed.

Lemma flatten_good h f v l : good h f v l -> inb h v ->
  exists h' v', flatten h v (length l) = Ok (h', v') /\ good h' Plain v' l /\ inb h' v'.
Proof.
  intros G I0. inversion G as [o l0 R|o b y l0 Eb L R F B|o q li l0 D M L R|o a d n l0 El W A]; subst; cbn [flatten].
  - exists h, (Flat o). auto.
  - destruct R as (R1 & c & R2 & Z). rewrite R1. cbn [rbind]. destruct y as [z|]; cbn [present].
    + rewrite R2. cbn [rbind]. destruct (alloc h _) as [[h1 a] k] eqn:E. destruct (cells_alloc _ _ _ _ _ E) as (Ha & Hb & C & N & Gr & Gb & Lm).
      eexists h1, _. split; [reflexivity|]. split; [|unfold inb; cbn; lia]. apply g_flat. intros i x Nx. pose proof (nth_lt _ _ _ Nx) as Li.
      rewrite Forall_forall in F. rewrite <- (F x) by (eapply nth_error_In; eassumption). split; cbn [msk dat].
      * unfold row_ok in *. rewrite Eb in *. destruct i as [|i]; [assumption|]. rewrite B by lia. reflexivity.
      * exists c. split; [|assumption]. cbn [rdc]. rewrite C. cbn [Nat.add]. rewrite nth_error_app1 by (rewrite repeat_length; assumption).
        rewrite nth_repeat' by assumption. reflexivity.
    + unfold mclear. destruct (length l =? 0) eqn:E0.
      * cbn [rbind]. destruct (alloc h _) as [[h1 a] k] eqn:E. destruct (cells_alloc _ _ _ _ _ E) as (Ha & Hb & C & N & Gr & Gb & Lm).
        eexists h1, _. split; [reflexivity|]. split; [|unfold inb; cbn; lia]. apply g_flat. intros i x Nx. pose proof (nth_lt _ _ _ Nx) as Li.
        apply Nat.eqb_eq in E0. lia.
      * rewrite Eb. replace (length l <=? length b) with true by (symmetry; apply Nat.leb_le; assumption). cbn [rbind].
        destruct (alloc h _) as [[h1 a] k] eqn:E. destruct (cells_alloc _ _ _ _ _ E) as (Ha & Hb & C & N & Gr & Gb & Lm).
        eexists h1, _. split; [reflexivity|]. split; [|unfold inb; cbn; lia]. apply g_flat. intros i x Nx. pose proof (nth_lt _ _ _ Nx) as Li.
        rewrite Forall_forall in F. rewrite <- (F x) by (eapply nth_error_In; eassumption). split; cbn [msk dat].
        -- unfold row_ok. cbn [arr]. rewrite nth_error_app1 by (rewrite repeat_length; assumption). rewrite nth_repeat' by assumption. reflexivity.
        -- exists None. split; [|discriminate]. cbn [rdc]. rewrite C. cbn [Nat.add]. rewrite nth_repeat' by lia. reflexivity.
  - destruct (copy_new h Selection _ l 0 G ltac:(discriminate) (inb_away _ _ I0) ltac:(lia) ltac:(auto) (length l) ltac:(lia))
      as (h1 & h2 & t & o' & b & E1 & E2 & T & _ & _ & _ & Lm & _).
    rewrite E1, E2. eexists h2, _. split; [reflexivity|]. cbn [skipn] in T. destruct T as (T1 & _ & _ & _ & T2). split; [apply g_flat; assumption|].
    unfold inb. cbn [own_of]. rewrite T1. lia.
  - destruct (seq_cells_ok n 0 a d) as (cs & E & L & N). { intros k Hk. eapply numbers_within; eassumption. }
    rewrite E. cbn [rbind]. destruct (alloc h _) as [[h1 a'] k] eqn:E1. destruct (cells_alloc _ _ _ _ _ E1) as (Ha & Hb & C & Nb & Gr & Gb & Lm).
    eexists h1, _. split; [reflexivity|]. split; [|unfold inb; cbn; lia]. apply g_flat. intros i x Nx. apply nth_numbers in Nx. destruct Nx as (Li & ->).
    split; cbn [msk dat].
    + unfold row_ok. rewrite A. reflexivity.
    + exists (Some (a + d * Z.of_nat i)%Z). split; [|congruence]. cbn [rdc]. rewrite C. cbn [Nat.add]. rewrite nth_error_app1 by lia. rewrite N by assumption. reflexivity.
Qed.

Lemma unified_good h f v l : good h f v l -> inb h v ->
  exists h' v' u, to_unified h v (length l) = Ok (h', v', u) /\ good h' (next_form f Unify) v' l /\ inb h' v' /\
  forall i x, nth_error l i = Some x -> unified_row h' u i = Ok x.
Proof.
  intros G I0. inversion G as [o l0 R|o b y l0 Eb L R F B|o q li l0 D M L R|o a d n l0 El W A]; subst; cbn [to_unified next_form].
  - cbn [flatten rbind own_of]. eexists h, _, _. split; [reflexivity|]. split; [assumption|]. split; [assumption|].
    intros i x N. unfold unified_row. cbn [u_ix u_dat u_msk get_index rbind]. apply row_value. auto.
  - eexists h, _, _. split; [reflexivity|]. split; [assumption|]. split; [assumption|]. intros i x N. pose proof (nth_lt _ _ _ N) as Li.
    unfold unified_row, zeros. cbn [u_ix u_dat u_msk get_index]. rewrite nth_repeat'.
    + cbn [rbind]. rewrite Forall_forall in F. rewrite <- (F x) by (eapply nth_error_In; eassumption). apply row_value. assumption.
    + destruct (length l <=? VCAP) eqn:V; [apply Nat.leb_le in V; lia|assumption].
  - eexists h, _, _. split; [reflexivity|]. split; [assumption|]. split; [assumption|]. intros i x N. destruct (R _ _ N) as (j & Nj & Rj).
    unfold unified_row. cbn [u_ix u_dat u_msk]. rewrite (get_index_some _ _ _ Nj). cbn [rbind]. apply row_value. assumption.
  - destruct (flatten_good _ _ _ _ G I0) as (h' & v' & E & G' & I'). rewrite E. cbn [rbind]. eexists h', _, _. split; [reflexivity|].
    split; [assumption|]. split; [assumption|]. intros i x N. inversion G' as [o' l0 R| | |]; subst. unfold unified_row. cbn [u_ix u_dat u_msk get_index rbind own_of].
    apply row_value. auto.
Qed.

Lemma slice_range_inb h f v l a b v' : good h f v l -> slice_range v a b = Ok v' -> inb h v -> inb h v'.
Proof.
  unfold slice_range. intros G H I0. destruct (b <? a); [discriminate|]. destruct G as [o l R|o bb y l Eb L R F B|o q li l D M L R|o s d n l -> W A].
  - destruct (a =? 0). { injection H as <-. assumption. } destruct (mslice (msk o) a (b - a)); [|discriminate]. cbn [rbind] in H.
    unfold inb in *. cbn [own_of] in I0. destruct (dat o) as [[x k]|]; [|discriminate]. injection H as <-. assumption.
  - injection H as <-. assumption.
  - cbn [slice_sel] in H. destruct (slice _ _ _); [|discriminate]. injection H as <-. assumption.
  - cbn [slice_sel] in H. injection H as <-. assumption.
Qed.

Lemma build_good h s : can_build s = true -> exists h' v, build h s = Ok (h', v) /\ good h' (form_of s) v (shown s) /\ inb h' v.
Proof.
  destruct s as [capacity l|x n|a d n]; cbn [can_build build shown form_of]; intros H.
  - apply Nat.leb_le in H. destruct (new_vec_ok h capacity) as (h1 & o & b & E & T & _ & _ & _ & _ & Lm). rewrite E.
    destruct (set_col_ok l h1 o _ [] capacity T) as (cs & m & E1 & T1); [cbn; lia|]. cbn [length app] in E1, T1. rewrite E1.
    eexists _, _. split; [reflexivity|]. split. { apply g_flat. apply T1. }
    unfold inb. cbn [own_of dat]. destruct T as (-> & _). unfold set_cells. cbn [mem]. rewrite length_list_set. lia.
  - apply Nat.leb_le in H. unfold const_vec, reference_value. destruct (alloc h [None]) as [[h1 a] b] eqn:E.
    destruct (cells_alloc _ _ _ _ _ E) as (Ha & Hb & C & N & Gr & Gb & Lm). cbn [own_of msk set_value mset arr]. rewrite repeat_length.
    replace (0 <? n) with true by (symmetry; apply Nat.ltb_lt; assumption). cbn [rbind dat buf cnt].
    set (bits := list_set (repeat true n) 0 (present x)). assert (Lb : length bits = n) by (unfold bits; rewrite length_list_set, repeat_length; reflexivity).
    assert (B0 : nth_error bits 0 = Some (present x)).
    { unfold bits. rewrite nth_list_set, repeat_length. replace (0 <? n) with true by (symmetry; apply Nat.ltb_lt; assumption). reflexivity. }
    assert (B1 : forall i, 0 < i < length bits -> nth_error bits i = Some true).
    { intros i Hi. unfold bits. rewrite nth_list_set. replace (i =? 0) with false by (symmetry; apply Nat.eqb_neq; lia). cbn [andb]. apply nth_repeat'. lia. }
    destruct x as [z|].
    + cbn [wrc]. rewrite C. cbn [Nat.add length]. replace (0 <? 1) with true by reflexivity. cbn [rbind list_set]. eexists _, _. split; [reflexivity|]. split.
      * replace (Const n) with (Const (length bits)) by congruence. eapply g_const with (x := Some z); [reflexivity| | | |exact B1].
        { rewrite repeat_length. lia. }
        { split; cbn [msk dat]. { unfold row_ok. cbn [arr]. rewrite B0. reflexivity. }
          exists (Some z). split; [|congruence]. cbn [rdc]. rewrite cells_set, Nat.eqb_refl by lia. reflexivity. }
        { apply Forall_forall. intros y Hy. apply repeat_spec in Hy. congruence. }
      * unfold inb. cbn [own_of dat]. unfold set_cells. cbn [mem]. rewrite length_list_set. lia.
    + eexists _, _. split; [reflexivity|]. split.
      * replace (Const n) with (Const (length bits)) by congruence. eapply g_const with (x := None); [reflexivity| | | |exact B1].
        { rewrite repeat_length. lia. }
        { split; cbn [msk dat]. { unfold row_ok. cbn [arr]. rewrite B0. reflexivity. }
          exists None. split; [|discriminate]. cbn [rdc]. rewrite C. reflexivity. }
        { apply Forall_forall. intros y Hy. apply repeat_spec in Hy. congruence. }
      * unfold inb. cbn [own_of dat]. lia.
  - destruct (new_vec_ok h VCAP) as (h1 & o & b & E & T & _ & _ & _ & _ & Lm). rewrite E. eexists _, _. split; [reflexivity|]. split.
    + apply g_seq; [reflexivity|assumption|reflexivity].
    + unfold inb. cbn [own_of dat sequence]. destruct T as (-> & _). lia.
Qed.

Lemma perform_good h f v l u l' : good h f v l -> inb h v -> can_use f (length l) u = true -> effect l u = Some l' ->
  exists h' v', perform h v (length l) u = Ok (h', v', length l') /\ good h' (next_form f u) v' l' /\ inb h' v'.
Proof.
  intros G I0 C E. destruct u as [ix|a b| |a|]; cbn [perform effect] in *.
  - destruct (slice_sel_good h f v l ix l' (length ix) G) as (v' & Es & G' & D).
    { intros ->. discriminate. } { assumption. } { reflexivity. } { intros b ->. cbn in C. apply Nat.leb_le. assumption. }
    destruct (pick_nth _ _ _ E) as (Lp & _). rewrite Es. cbn [rbind]. exists h, v'. rewrite Lp. split; [reflexivity|]. split.
    + destruct f; cbn [next_form]; assumption.
    + unfold inb. rewrite D. exact I0.
  - destruct ((a <=? b) && (b <=? length l)) eqn:B; [|discriminate]. injection E as <-. apply andb_true_iff in B. rewrite !Nat.leb_le in B.
    destruct (slice_range_good h f v l a b G) as (v' & Es & G'). { intros ->. discriminate. } { lia. }
    rewrite Es. cbn [rbind]. exists h, v'. rewrite firstn_length, skipn_length. replace (Nat.min (b - a) (length l - a)) with (b - a) by lia.
    split; [reflexivity|]. split; [destruct f; cbn [next_form]; assumption|]. exact (slice_range_inb _ _ _ _ _ _ _ G Es I0).
  - injection E as <-. destruct (flatten_good _ _ _ _ G I0) as (h' & v' & Ef & G' & I'). rewrite Ef. cbn [rbind]. exists h', v'. split; [reflexivity|].
    split; [destruct f; cbn [next_form]; assumption|assumption].
  - destruct (a <=? length l) eqn:B; [|discriminate]. injection E as <-. apply Nat.leb_le in B.
    destruct (copy_new h f v l a G) with (capacity := length l - a) as (h1 & h2 & t & o & b & E1 & E2 & T & _ & _ & _ & Lm & _).
    { intros ->. discriminate. } { apply inb_away. assumption. } { assumption. }
    { intros b ->. cbn in C. apply orb_true_iff in C. rewrite Nat.leb_le, Nat.eqb_eq in C. tauto. } { lia. }
    rewrite E1, E2. cbn [rbind]. exists h2, (Flat o). rewrite skipn_length. split; [reflexivity|]. destruct T as (T1 & _ & _ & _ & T2).
    split; [destruct f; cbn [next_form]; apply g_flat; assumption|]. unfold inb. cbn [own_of]. rewrite T1. lia.
  - injection E as <-. destruct (unified_good _ _ _ _ G I0) as (h' & v' & w & Eu & G' & I' & _). rewrite Eu. cbn [rbind]. exists h', v'. auto.
Qed.

Lemma performs_good : forall us h f v l l', good h f v l -> inb h v -> can_uses f l us = true -> effects l us = Some l' ->
  exists h' v' f', performs h v (length l) us = Ok (h', v', length l') /\ good h' f' v' l' /\ inb h' v'.
Proof.
  induction us as [|u us IH]; intros h f v l l' G I0 C E; cbn [performs effects can_uses] in *.
  - injection E as <-. exists h, v, f. auto.
  - apply andb_true_iff in C. destruct C as (C1 & C2). destruct (effect l u) as [l1|] eqn:E1; [|discriminate].
    destruct (perform_good _ _ _ _ _ _ G I0 C1 E1) as (h1 & v1 & P & G1 & I1). rewrite P. cbn [rbind]. eapply IH; eassumption.
Qed.

Lemma vector_reads s us l :
  can_build s = true -> can_uses (form_of s) (shown s) us = true -> effects (shown s) us = Some l ->
  forall h, exists h1 v1 h2 v2 h3 v3 u, build h s = Ok (h1, v1) /\ performs h1 v1 (length (shown s)) us = Ok (h2, v2, length l) /\
  to_unified h2 v2 (length l) = Ok (h3, v3, u) /\
  forall i x, nth_error l i = Some x -> value h2 v2 i = Ok x /\ unified_row h3 u i = Ok x /\ value h3 v3 i = Ok x.
Proof.
  intros B C E h. destruct (build_good h s B) as (h1 & v1 & E1 & G1 & I1). destruct (performs_good _ _ _ _ _ _ G1 I1 C E) as (h2 & v2 & f & E2 & G2 & I2).
  destruct (unified_good _ _ _ _ G2 I2) as (h3 & v3 & u & E3 & G3 & I3 & U). exists h1, v1, h2, v2, h3, v3, u.
  split; [assumption|]. split; [assumption|]. split; [assumption|]. intros i x N. split; [eapply good_value; eassumption|]. split; [auto|].
  eapply good_value; eassumption.
Qed.
