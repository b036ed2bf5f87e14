From Verif Require Import Bytes Outcome NestModel NestSpec.
From Coq Require Import Lia.
Local Open Scope nat_scope.

(** ** Lists *)
Lemma sub_length : forall A (l : list A) i n, i + n <= length l -> length (sub l i n) = n.
Proof. intros. unfold sub. rewrite firstn_length, skipn_length. lia. Qed.
Lemma sub_app_l : forall A (a b : list A) i n, i + n <= length a -> sub (a ++ b) i n = sub a i n.
Proof.
  intros. unfold sub. rewrite skipn_app, firstn_app, skipn_length.
  replace (n - (length a - i)) with 0 by lia. cbn [firstn]. apply app_nil_r.
Qed.
Lemma sub_app_r : forall A (a b : list A) i n, sub (a ++ b) (length a + i) n = sub b i n.
Proof.
  intros. unfold sub. rewrite skipn_app. rewrite skipn_all2 by lia. cbn [app].
  replace (length a + i - length a) with i by lia. reflexivity.
Qed.
Lemma skipn_plus : forall A (l : list A) a b, skipn (a + b) l = skipn b (skipn a l).
Proof.
  intros A l a; revert l; induction a as [|a IH]; intros l b; cbn [Nat.add skipn]; [reflexivity|].
  destruct l; [now rewrite skipn_nil|]. apply IH.
Qed.
Lemma sub_sub : forall A (l : list A) i n j m, j + m <= n -> sub (sub l i n) j m = sub l (i + j) m.
Proof.
  intros. unfold sub. rewrite skipn_firstn_comm, firstn_firstn, skipn_plus.
  replace (Nat.min m (n - j)) with m by lia. reflexivity.
Qed.
Lemma map_sub : forall A B (f : A -> B) l i n, map f (sub l i n) = sub (map f l) i n.
Proof. intros. unfold sub. now rewrite skipn_map, firstn_map. Qed.
Lemma sub_seq : forall a n i k, i + k <= n -> sub (seq a n) i k = seq (a + i) k.
Proof.
  intros a n i; revert a n; induction i as [|i IH]; intros a n k H.
  - unfold sub. cbn [skipn]. rewrite Nat.add_0_r. revert a n H.
    induction k as [|k IHk]; intros a n H; [now destruct (seq a n)|].
    destruct n; [lia|]. cbn [seq firstn]. f_equal. apply IHk. lia.
  - destruct n; [lia|]. unfold sub. cbn [seq skipn]. fold (sub (seq (S a) n) i k). rewrite IH by lia. f_equal. lia.
Qed.
Lemma map_seq_sub : forall A (f : nat -> A) n i k, i + k <= n -> map f (seq i k) = sub (map f (seq 0 n)) i k.
Proof. intros. rewrite <- map_sub, sub_seq by lia. reflexivity. Qed.
Lemma sub_0 : forall A (l : list A) i, sub l i 0 = [].
Proof. intros. unfold sub. apply firstn_O. Qed.
Lemma sub_plus : forall A (l : list A) i a b, sub l i (a + b) = sub l i a ++ sub l (i + a) b.
Proof.
  intros. unfold sub. rewrite skipn_plus. generalize (skipn i l) as l'. clear.
  intros l'; revert a b; induction l' as [|x l' IH]; intros a b.
  - now rewrite skipn_nil, !firstn_nil.
  - destruct a; [reflexivity|]. cbn [Nat.add firstn skipn app]. f_equal. apply IH.
Qed.
Lemma sub_one : forall A (l : list A) i d, i < length l -> sub l i 1 = [nth i l d].
Proof.
  intros A l; induction l as [|x l IH]; intros i d H; cbn [length] in H; [lia|].
  destruct i; [reflexivity|]. unfold sub. cbn [skipn nth]. apply IH. lia.
Qed.
Lemma rows_length : forall v n, length (rows v n) = n.
Proof. intros. unfold rows. now rewrite map_length, seq_length. Qed.
Lemma rows_sub : forall v n i k, i + k <= n -> map (vrow v) (seq i k) = sub (rows v n) i k.
Proof. intros. now apply map_seq_sub. Qed.
Lemma rows_firstn : forall v m n, n <= m -> rows v n = firstn n (rows v m).
Proof. intros. unfold rows at 1. rewrite (rows_sub v m) by lia. reflexivity. Qed.
Lemma rows_ext : forall v w n, (forall i, i < n -> vrow v i = vrow w i) -> rows v n = rows w n.
Proof. intros. unfold rows. apply map_ext_in. intros i Hi. apply in_seq in Hi. apply H. lia. Qed.
Lemma rows_eq : forall v n l d, length l = n -> (forall i, i < n -> vrow v i = nth i l d) -> rows v n = l.
Proof.
  intros v n l d Hl H. apply nth_ext with (d := d) (d' := d); rewrite rows_length; [congruence|].
  intros i Hi. unfold rows. rewrite nth_indep with (d' := vrow v 0) by now rewrite map_length, seq_length.
  rewrite map_nth, seq_nth by lia. now apply H.
Qed.
Lemma rows_nth : forall v n i d, i < n -> nth i (rows v n) d = vrow v i.
Proof.
  intros. unfold rows. rewrite nth_indep with (d' := vrow v 0) by now rewrite map_length, seq_length.
  rewrite map_nth, seq_nth by lia. reflexivity.
Qed.

(** ** Rows of columns *)
Definition leafval (x : option N) : val := match x with Some y => Prim y | None => Null end.
Fixpoint lrows (lo : nat) (offs : list nat) (vd : list bool) (crs : list val) : list val :=
  match offs, vd with
  | o :: offs', b :: vd' => (if b then Lst (sub crs lo (o - lo)) else Null) :: lrows o offs' vd' crs
  | _, _ => []
  end.
Fixpoint arows (k : nat) (vd : list bool) (crs : list val) : list val :=
  match vd with [] => [] | b :: vd' => (if b then Lst (firstn k crs) else Null) :: arows k vd' (skipn k crs) end.
Fixpoint srows (vd : list bool) (crs : list val) : list val :=
  match vd, crs with b :: vd', x :: crs' => (if b then Rec x else Null) :: srows vd' crs' | _, _ => [] end.
Fixpoint frows (a b : list val) : list val :=
  match a, b with x :: a', y :: b' => Fields x y :: frows a' b' | _, _ => [] end.
Fixpoint up (lo : nat) (offs : list nat) (n : nat) : Prop :=
  match offs with [] => lo <= n | o :: r => lo <= o /\ up o r n end.

Fixpoint cok (t : ty) (c : col) (rs : list val) : Prop :=
  match t, c with
  | TLeaf, CLeaf d => rs = map leafval d
  | TList t', CList offs vd c' =>
    exists crs, cok t' c' crs /\ length offs = length vd /\ up 0 offs (length crs) /\ last offs 0 = length crs /\
      rs = lrows 0 offs vd crs
  | TArray k t', CArray k' vd c' =>
    k' = k /\ exists crs, cok t' c' crs /\ length crs = length vd * k /\ rs = arows k vd crs
  | TStruct fs, CStruct vd c' => exists crs, cok fs c' crs /\ length crs = length vd /\ rs = srows vd crs
  | TBoth a b, CBoth x y => exists ra rb, cok a x ra /\ cok b y rb /\ length ra = length rb /\ rs = frows ra rb
  | TEnd, CEnd => rs = repeat NoFields (length rs)
  | _, _ => False
  end.

Lemma lrows_length : forall offs lo vd crs, length offs = length vd -> length (lrows lo offs vd crs) = length offs.
Proof.
  induction offs as [|o offs IH]; intros lo [|b vd] crs H; cbn [length lrows] in *; try lia. now rewrite IH by lia.
Qed.
Lemma arows_length : forall k vd crs, length (arows k vd crs) = length vd.
Proof. induction vd as [|b vd IH]; intros; cbn [length arows]; [reflexivity|]. now rewrite IH. Qed.
Lemma srows_length : forall vd crs, length crs = length vd -> length (srows vd crs) = length vd.
Proof. induction vd as [|b vd IH]; intros [|x crs] H; cbn [length srows] in *; try lia. now rewrite IH by lia. Qed.
Lemma frows_length : forall a b, length a = length b -> length (frows a b) = length a.
Proof. induction a as [|x a IH]; intros [|y b] H; cbn [length frows] in *; try lia. now rewrite IH by lia. Qed.

Lemma cok_max : forall t c rs, wft t -> cok t c rs -> t <> TEnd -> max_entry c = length rs.
Proof.
  induction t; intros c rs W K E; destruct c; cbn [cok wft max_entry] in *; try tauto; try congruence.
  - subst. now rewrite map_length.
  - destruct K as (crs & _ & L & _ & _ & ->). now rewrite lrows_length.
  - destruct K as (_ & crs & _ & _ & ->). now rewrite arows_length.
  - destruct K as (crs & K & L & ->). rewrite srows_length by lia. destruct W as [F W].
    rewrite <- L. apply IHt; auto. intros ->. exact F.
  - destruct K as (ra & rb & Ka & _ & L & ->). rewrite frows_length by lia. destruct W as (V & _ & W & _).
    apply IHt1; auto. intros ->. exact V.
Qed.
Lemma value_not_end : forall t, is_value t -> t <> TEnd.
Proof. intros t V ->. exact V. Qed.

Lemma cok_new : forall t, cok t (new t) [].
Proof.
  induction t; cbn [cok new].
  - reflexivity.
  - exists []. cbn. auto.
  - split; [reflexivity|]. exists []. cbn. auto.
  - exists []. cbn. auto.
  - exists [], []. cbn. auto.
  - reflexivity.
Qed.

(** ** Rows of vectors *)
Lemma nth_error_row : forall A (d : A) l ix i, i < length ix -> nth_error (row d l ix) i = Some (nth (nth i ix 0) l d).
Proof.
  intros. unfold row. rewrite nth_error_map. rewrite (nth_error_nth' ix 0) by lia. reflexivity.
Qed.
Lemma row_length : forall A (d : A) l ix, length (row d l ix) = length ix.
Proof. intros. apply map_length. Qed.
Lemma nth_error_in : forall A (l : list A) i d, i < length l -> nth_error l i = Some (nth i l d).
Proof. intros. now apply nth_error_nth'. Qed.

Lemma take_ok : forall t v m ix, wft t -> no_arrays t -> vwf t v m -> (forall i, In i ix -> i < m) ->
  vwf t (take v ix) (length ix) /\ forall j, j < length ix -> vrow (take v ix) j = vrow v (nth j ix 0).
Proof.
  induction t; intros v m ix W NA V B; destruct v; cbn [vwf no_arrays wft take] in *; try tauto.
  - split; [now rewrite row_length|]. intros j Hj. cbn [vrow].
    rewrite nth_error_row by lia. rewrite (nth_error_in _ d (nth j ix 0) None); [reflexivity|].
    rewrite V. apply B. now apply nth_In.
  - destruct V as (L & k & Vk & E). split.
    + split; [now rewrite row_length|]. exists k. split; [exact Vk|]. intros o l H. apply E.
      unfold row in H. apply in_map_iff in H. destruct H as (i & H & Hi). rewrite <- H. apply nth_In. rewrite L. now apply B.
    + intros j Hj. cbn [vrow]. rewrite nth_error_row by lia.
      rewrite (nth_error_in _ es (nth j ix 0) None); [reflexivity|]. rewrite L. apply B. now apply nth_In.
  - destruct V as (L & V). destruct W as [_ W]. destruct (IHt _ _ ix W NA V B) as [V' R]. split.
    + split; [now rewrite row_length|exact V'].
    + intros j Hj. cbn [vrow]. rewrite nth_error_row by lia.
      rewrite (nth_error_in _ vd (nth j ix 0) false) by (rewrite L; apply B; now apply nth_In). now rewrite R.
  - destruct V as [Va Vb], NA as [Na Nb], W as (_ & _ & Wa & Wb).
    destruct (IHt1 _ _ ix Wa Na Va B) as [Va' Ra], (IHt2 _ _ ix Wb Nb Vb B) as [Vb' Rb].
    split; [now split|]. intros j Hj. cbn [vrow]. now rewrite Ra, Rb.
Qed.
Lemma take_rows : forall t v m ix, wft t -> no_arrays t -> vwf t v m -> (forall i, In i ix -> i < m) ->
  rows (take v ix) (length ix) = map (vrow v) ix.
Proof.
  intros t v m ix W NA V B. destruct (take_ok t v m ix W NA V B) as [_ R].
  apply rows_eq with (d := vrow v 0); [apply map_length|]. intros i Hi. rewrite map_nth. now apply R.
Qed.

(** the rows of list entries *)
Definition erow (v : vec) (e : option (nat * nat)) : val :=
  match e with Some (o, l) => Lst (map (vrow v) (seq o l)) | None => Null end.
Lemma vlist_rows : forall es v n, n <= length es -> rows (VList es v) n = map (erow v) (firstn n es).
Proof.
  intros es v n H. apply rows_eq with (d := Null); [rewrite map_length, firstn_length; lia|].
  intros i Hi. change Null with (erow v None). rewrite map_nth. cbn [vrow].
  replace (nth i (firstn n es) None) with (nth i es None).
  - rewrite (nth_error_in _ es i None) by lia. unfold erow. destruct (nth i es None) as [[o l]|]; reflexivity.
  - rewrite <- (firstn_skipn n es) at 1. rewrite app_nth1; [reflexivity|]. rewrite firstn_length. lia.
Qed.
Lemma varray_rows : forall n k vd v, n <= length vd -> rows (VArray k vd v) n = arows k (firstn n vd) (rows v (n * k)).
Proof.
  intros n k vd v H.
  assert (G : forall m, m <= n -> map (vrow (VArray k vd v)) (seq (n - m) m) =
    arows k (sub vd (n - m) m) (map (vrow v) (seq ((n - m) * k) (m * k)))).
  { induction m as [|m IH]; intros Hm; [now rewrite sub_0|].
    cbn [seq map]. unfold sub. rewrite <- (firstn_skipn 1 (skipn (n - S m) vd)).
    rewrite <- skipn_plus. change (firstn 1 (skipn (n - S m) vd)) with (sub vd (n - S m) 1).
    rewrite (sub_one _ vd _ false) by lia. cbn [app firstn]. replace (n - S m + 1) with (n - m) by lia.
    fold (sub vd (n - m) m). cbn [arows]. f_equal.
    - cbn [vrow]. rewrite (nth_error_in _ vd _ false) by lia. destruct (nth (n - S m) vd false); [|reflexivity].
      rewrite (map_seq_sub _ (vrow v) ((n - S m) * k + S m * k) ((n - S m) * k) k) by (cbn [Nat.mul]; lia).
      rewrite (map_seq_sub _ (vrow v) ((n - S m) * k + S m * k) ((n - S m) * k) (S m * k)) by lia.
      f_equal. change (firstn k (sub (map (vrow v) (seq 0 ((n - S m) * k + S m * k))) ((n - S m) * k) (S m * k)))
        with (sub (sub (map (vrow v) (seq 0 ((n - S m) * k + S m * k))) ((n - S m) * k) (S m * k)) 0 k).
      rewrite sub_sub by (cbn [Nat.mul]; lia). now rewrite Nat.add_0_r.
    - replace (S (n - S m)) with (n - m) by lia. rewrite IH by lia. f_equal.
      cbn [Nat.mul]. rewrite seq_app, map_app, skipn_app. rewrite skipn_all2 by (rewrite map_length, seq_length; lia).
      rewrite map_length, seq_length, Nat.sub_diag. cbn [skipn app]. do 2 f_equal.
      replace (n - m) with (S (n - S m)) by lia. cbn [Nat.mul]. lia. }
  specialize (G n (le_n n)). rewrite Nat.sub_diag in G. exact G.
Qed.
Lemma vstruct_rows : forall n vd v, n <= length vd -> rows (VStruct vd v) n = srows (firstn n vd) (rows v n).
Proof.
  intros n vd v H. unfold rows.
  assert (G : forall m, m <= n -> map (vrow (VStruct vd v)) (seq (n - m) m) = srows (sub vd (n - m) m) (map (vrow v) (seq (n - m) m))).
  { induction m as [|m IH]; intros Hm; [now rewrite sub_0|].
    cbn [seq map]. unfold sub. rewrite <- (firstn_skipn 1 (skipn (n - S m) vd)).
    rewrite <- skipn_plus. change (firstn 1 (skipn (n - S m) vd)) with (sub vd (n - S m) 1).
    rewrite (sub_one _ vd _ false) by lia. cbn [app firstn]. replace (n - S m + 1) with (n - m) by lia.
    fold (sub vd (n - m) m). cbn [srows]. replace (S (n - S m)) with (n - m) by lia. rewrite IH by lia. f_equal.
    cbn [vrow]. rewrite (nth_error_in _ vd _ false) by lia. destruct (nth (n - S m) vd false); reflexivity. }
  specialize (G n (le_n n)). rewrite Nat.sub_diag in G. exact G.
Qed.
Lemma vboth_rows : forall n a b, rows (VBoth a b) n = frows (rows a n) (rows b n).
Proof.
  intros. unfold rows. generalize 0 as i. induction n as [|n IH]; intros i; cbn [seq map frows]; [reflexivity|].
  f_equal. apply IH.
Qed.
Lemma vend_rows : forall n, rows VEnd n = repeat NoFields n.
Proof.
  intros. unfold rows. generalize 0 as i. induction n as [|n IH]; intros i; cbn [seq map repeat]; [reflexivity|].
  f_equal. apply IH.
Qed.
Lemma vleaf_rows : forall d n, n <= length d -> rows (VLeaf d) n = map leafval (firstn n d).
Proof.
  intros d n H. apply rows_eq with (d := leafval None); [rewrite map_length, firstn_length; lia|].
  intros i Hi. rewrite map_nth. cbn [vrow].
  replace (nth i (firstn n d) None) with (nth i d None).
  - rewrite (nth_error_in _ d i None) by lia. destruct (nth i d None); reflexivity.
  - rewrite <- (firstn_skipn n d) at 1. rewrite app_nth1; [reflexivity|]. rewrite firstn_length. lia.
Qed.

(** ** Append *)
Lemma arows_app : forall k a b ca cb, length ca = length a * k -> arows k (a ++ b) (ca ++ cb) = arows k a ca ++ arows k b cb.
Proof.
  induction a as [|x a IH]; intros b ca cb H; cbn [length Nat.mul] in H.
  - destruct ca; [reflexivity|discriminate].
  - cbn [app arows]. rewrite firstn_app, skipn_app. replace (k - length ca) with 0 by lia.
    cbn [firstn skipn]. rewrite app_nil_r. cbn [app]. f_equal. apply IH. rewrite skipn_length. lia.
Qed.
Lemma srows_app : forall a b ca cb, length ca = length a -> srows (a ++ b) (ca ++ cb) = srows a ca ++ srows b cb.
Proof.
  induction a as [|x a IH]; intros b [|c ca] cb H; cbn [length] in H; try discriminate; [reflexivity|].
  cbn [app srows]. f_equal. apply IH. lia.
Qed.
Lemma frows_app : forall a b c d, length a = length c -> frows (a ++ b) (c ++ d) = frows a c ++ frows b d.
Proof.
  induction a as [|x a IH]; intros b [|y c] d H; cbn [length] in H; try discriminate; [reflexivity|].
  cbn [app frows]. f_equal. apply IH. lia.
Qed.
Lemma up_le : forall offs lo n, up lo offs n -> lo <= n.
Proof. induction offs as [|o offs IH]; intros lo n H; cbn [up] in H; [lia|]. destruct H as [A B]. apply IH in B. lia. Qed.
Lemma up_mono : forall offs lo n m, up lo offs n -> n <= m -> up lo offs m.
Proof. induction offs as [|o offs IH]; intros lo n m H L; cbn [up] in *; [lia|]. destruct H as [A B]. eauto. Qed.
Lemma lrows_app_crs : forall offs lo vd crs x, up lo offs (length crs) -> lrows lo offs vd (crs ++ x) = lrows lo offs vd crs.
Proof.
  induction offs as [|o offs IH]; intros lo [|b vd] crs x U; cbn [lrows up] in *; try reflexivity.
  destruct U as [A B]. rewrite IH by assumption. apply up_le in B. rewrite sub_app_l by lia. reflexivity.
Qed.
Lemma last_any : forall (l : list nat) x a b, last (x :: l) a = last (x :: l) b.
Proof. induction l as [|y l IH]; intros x a b; [reflexivity|]. change (last (y :: l) a = last (y :: l) b). apply IH. Qed.
Lemma last_cons_default : forall (l : list nat) x d, last (x :: l) d = last l x.
Proof. intros [|y l] x d; [reflexivity|]. change (last (y :: l) d = last (y :: l) x). apply last_any. Qed.
Lemma last_app_default : forall (a b : list nat) d, last (a ++ b) d = last b (last a d).
Proof.
  induction a as [|x a IH]; intros b d; [reflexivity|]. cbn [app]. rewrite !last_cons_default. apply IH.
Qed.
Lemma lrows_app : forall a lo va b vb crs, length a = length va ->
  lrows lo (a ++ b) (va ++ vb) crs = lrows lo a va crs ++ lrows (last a lo) b vb crs.
Proof.
  induction a as [|o a IH]; intros lo [|v va] b vb crs H; cbn [length] in H; try discriminate; [reflexivity|].
  rewrite last_cons_default. cbn [app lrows]. f_equal. apply IH. lia.
Qed.
Lemma up_app : forall a lo b n, up lo a (last a lo) -> up (last a lo) b n -> up lo (a ++ b) n.
Proof.
  induction a as [|o a IH]; intros lo b n A B; [exact B|]. rewrite last_cons_default in *. cbn [app up] in *.
  split; [tauto|]. apply IH; tauto.
Qed.
Lemma up_last_any : forall a lo n, up lo a n -> up lo a (last a lo).
Proof.
  induction a as [|o a IH]; intros lo n H; cbn [up] in *; [cbn; lia|]. rewrite last_cons_default. split; [tauto|].
  apply IH with n. tauto.
Qed.

Lemma offsets_length : forall es a, length (offsets a es) = length es.
Proof. induction es as [|[[o l]|] es IH]; intros a; cbn [offsets length]; [reflexivity| |]; now rewrite IH. Qed.
Lemma offsets_last : forall es a, last (offsets a es) a = a + total es.
Proof.
  induction es as [|[[o l]|] es IH]; intros a; cbn [offsets total]; [cbn; lia| |]; rewrite last_cons_default, IH; lia.
Qed.
Lemma offsets_up : forall es a, up a (offsets a es) (a + total es).
Proof.
  induction es as [|[[o l]|] es IH]; intros a; cbn [offsets total up]; [lia| |]; (split; [lia|]).
  - rewrite Nat.add_assoc. apply IH.
  - apply IH.
Qed.
Lemma child_rows_length : forall es, length (child_rows es) = total es.
Proof.
  induction es as [|[[o l]|] es IH]; cbn [child_rows total]; [reflexivity| |exact IH].
  now rewrite app_length, seq_length, IH.
Qed.
Lemma offsets_rows : forall v es pre post,
  lrows (length pre) (offsets (length pre) es) (map valid es) (pre ++ map (vrow v) (child_rows es) ++ post) = map (erow v) es.
Proof.
  intros v. induction es as [|[[o l]|] es IH]; intros pre post; cbn [offsets child_rows map lrows valid]; [reflexivity| |].
  - cbn [erow]. rewrite map_app. f_equal.
    + f_equal. replace (length pre + l - length pre) with l by lia. rewrite <- (Nat.add_0_r (length pre)) at 1.
      rewrite sub_app_r. rewrite <- app_assoc. rewrite sub_app_l by (rewrite map_length, seq_length; lia).
      unfold sub. cbn [skipn]. apply firstn_all2. rewrite map_length, seq_length. lia.
    + rewrite <- app_assoc. rewrite app_assoc.
      specialize (IH (pre ++ map (vrow v) (seq o l)) post).
      rewrite app_length, map_length, seq_length in IH. exact IH.
  - f_equal. apply IH.
Qed.
Lemma contiguous_rows : forall es c, contiguous c es = true -> child_rows es = seq c (total es).
Proof.
  induction es as [|[[o l]|] es IH]; intros c H; cbn [contiguous child_rows total] in *; [reflexivity| |now apply IH].
  apply andb_prop in H. destruct H as [A B]. apply Nat.eqb_eq in A. subst. rewrite (IH _ B), seq_app. reflexivity.
Qed.
Lemma child_rows_in : forall es m, (forall o l, In (Some (o, l)) es -> o + l <= m) -> forall i, In i (child_rows es) -> i < m.
Proof.
  induction es as [|[[o l]|] es IH]; intros m H i Hi; cbn [child_rows] in Hi; [easy| |].
  - apply in_app_or in Hi. destruct Hi as [Hi|Hi].
    + apply in_seq in Hi. specialize (H o l (or_introl eq_refl)). lia.
    + apply (IH m); auto. intros. apply H. now right.
  - apply (IH m); auto. intros. apply H. now right.
Qed.
Lemma firstn_In : forall A (l : list A) n x, In x (firstn n l) -> In x l.
Proof. intros. rewrite <- (firstn_skipn n l). apply in_or_app. now left. Qed.
Lemma in_order_free : forall t v n, no_arrays t -> in_order t v n.
Proof.
  induction t; intros v n NA; destruct v; cbn [in_order no_arrays] in *; auto; try tauto.
  destruct NA. auto.
Qed.

Lemma behind_contiguous : forall es c, behind c es -> contiguous c es = true.
Proof.
  induction es as [|[[o l]|] es IH]; intros c H; cbn [behind contiguous] in *; [reflexivity| |now apply IH].
  destruct H as [-> H]. rewrite Nat.eqb_refl. now apply IH.
Qed.
Lemma elements_total : forall es, elements es = total es.
Proof.
  unfold elements, list_sum. induction es as [|[[o l]|] es IH]; cbn [map fold_right total] in *; [reflexivity| |exact IH].
  now rewrite IH.
Qed.
Lemma append_ok : forall t c rs v m n, wft t -> cok t c rs -> vwf t v m -> n <= m -> in_order t v n ->
  exists c', append c v n = Ok c' /\ cok t c' (rs ++ rows v n).
Proof.
  induction t; intros c rs v m n W K V Hn O; destruct c, v; cbn [cok vwf wft in_order append] in *; try tauto.
  - destruct (Nat.ltb_spec (length d0) n); [lia|]. eexists. split; [reflexivity|]. cbn [cok].
    subst rs. now rewrite map_app, vleaf_rows by lia.
  - destruct K as (crs & K & L & U & LA & ->). destruct V as (LV & k & V & E). destruct W as [IV W].
    destruct (Nat.ltb_spec (length es) n); [lia|].
    rewrite (vlist_rows es v n) by lia. set (fs := firstn n es) in *.
    assert (E' : forall o l, In (Some (o, l)) fs -> o + l <= k) by (intros; apply E; eapply firstn_In; eauto).
    pose proof (child_rows_in fs k E') as B.
    rewrite (cok_max t c crs W K (value_not_end _ IV)).
    assert (A : exists c', (if 0 <? total fs then append c (if contiguous 0 fs then v else take v (child_rows fs)) (total fs) else Ok c)
       = Ok c' /\ cok t c' (crs ++ map (vrow v) (child_rows fs))).
    { destruct (Nat.ltb_spec 0 (total fs)) as [P|P].
      - destruct (contiguous 0 fs) eqn:C.
        + pose proof (contiguous_rows fs 0 C) as CR. rewrite CR. fold (rows v (total fs)).
          apply (IHt c crs v k); auto.
          * assert (total fs - 1 < k); [|lia]. apply B. rewrite CR. apply in_seq. lia.
          * destruct O as [O|[_ O]]; [now apply in_order_free|now rewrite elements_total in O].
        + destruct O as [NA|[O _]]; [|apply behind_contiguous in O; congruence].
          destruct (take_ok t v k (child_rows fs) W NA V B) as [V' _].
          rewrite <- (take_rows t v k (child_rows fs) W NA V B). rewrite child_rows_length in *.
          apply (IHt c crs _ (total fs)); auto. now apply in_order_free.
      - exists c. split; [reflexivity|]. assert (Z : child_rows fs = []).
        { apply length_zero_iff_nil. rewrite child_rows_length. lia. }
        rewrite Z. cbn [map]. now rewrite app_nil_r. }
    destruct A as (c' & A & K'). rewrite A. cbn [rbind]. eexists. split; [reflexivity|]. cbn [cok].
    exists (crs ++ map (vrow v) (child_rows fs)).
    split; [exact K'|]. split; [rewrite !app_length, offsets_length, map_length; lia|].
    assert (T : length (map (vrow v) (child_rows fs)) = total fs) by (rewrite map_length; apply child_rows_length).
    split; [|split].
    + apply up_app; [apply up_last_any with (length crs); exact U|]. rewrite LA, app_length, T. apply offsets_up.
    + rewrite last_app_default, LA, offsets_last, app_length, T. reflexivity.
    + rewrite lrows_app by lia. rewrite LA. rewrite lrows_app_crs by exact U. f_equal.
      rewrite <- (app_nil_r (crs ++ _)), <- app_assoc. symmetry. apply offsets_rows.
  - destruct K as (-> & crs & K & L & ->). destruct V as (-> & LV & V). destruct W as [IV W].
    destruct (Nat.ltb_spec (length vd0) n); [lia|].
    destruct (IHt c crs v (m * size) (n * size) W K V) as (c' & A & K'); [nia|exact O|].
    rewrite A. cbn [rbind]. eexists. split; [reflexivity|]. cbn [cok]. split; [reflexivity|].
    eexists. split; [exact K'|]. split.
    + rewrite !app_length, rows_length, firstn_length. rewrite L. replace (Nat.min n (length vd0)) with n by lia. lia.
    + rewrite varray_rows by lia. symmetry. apply arows_app. exact L.
  - destruct K as (crs & K & L & ->). destruct V as (LV & V). destruct W as [IV W].
    destruct (Nat.ltb_spec (length vd0) n); [lia|].
    destruct (IHt c crs v m n W K V Hn O) as (c' & A & K').
    rewrite A. cbn [rbind]. eexists. split; [reflexivity|]. cbn [cok].
    eexists. split; [exact K'|]. split.
    + rewrite !app_length, rows_length, firstn_length. lia.
    + rewrite vstruct_rows by lia. symmetry. apply srows_app. lia.
  - destruct K as (ra & rb & Ka & Kb & L & ->). destruct V as [Va Vb], O as [Oa Ob], W as (_ & _ & Wa & Wb).
    destruct (IHt1 _ _ _ _ _ Wa Ka Va Hn Oa) as (a' & A & Ka'), (IHt2 _ _ _ _ _ Wb Kb Vb Hn Ob) as (b' & B & Kb').
    rewrite A. cbn [rbind]. rewrite B. cbn [rbind]. eexists. split; [reflexivity|]. cbn [cok].
    exists (ra ++ rows v1 n), (rb ++ rows v2 n). split; [exact Ka'|]. split; [exact Kb'|].
    split; [rewrite !app_length, !rows_length; lia|]. rewrite vboth_rows. symmetry. now apply frows_app.
  - eexists. split; [reflexivity|]. cbn [cok]. rewrite vend_rows, app_length, repeat_length, repeat_app. now rewrite <- K.
Qed.
Lemma append_all_ok : forall t bs c rs, wft t -> cok t c rs -> Forall (batch_ok t) bs ->
  exists c', append_all c bs = Ok c' /\ cok t c' (rs ++ rows_of bs).
Proof.
  intros t. induction bs as [|[v n] bs IH]; intros c rs W K F; cbn [append_all].
  - exists c. split; [reflexivity|]. cbn. now rewrite app_nil_r.
  - inversion F as [|? ? [m (V & L & O)] F']; subst. cbn [fst snd] in *.
    destruct (append_ok t c rs v m n W K V L O) as (c' & A & K'). rewrite A. cbn [rbind].
    destruct (IH c' _ W K' F') as (c2 & A2 & K2). exists c2. split; [exact A2|].
    unfold rows_of in *. cbn [flat_map fst snd]. now rewrite app_assoc.
Qed.

(** ** Scans *)
Definition off (offs : list nat) (r : nat) : nat := match r with 0 => 0 | S k => nth k offs 0 end.
Fixpoint at_ (c : col) (s : nat) (st : state) (r : nat) : Prop :=
  match c, st with
  | CEnd, SEnd => True
  | CEnd, _ => False
  | _, SNone => r = max_entry c
  | CLeaf _, SLeaf q => q = s + r
  | CList offs _ c', SList q lo t => q = s + r /\ lo = off offs r /\ at_ c' s t lo
  | CArray k _ c', SArray q t => q = s + r /\ at_ c' s t (r * k)
  | CStruct _ c', SStruct q t => q = s + r /\ at_ c' s t r
  | CBoth a b, SBoth x y => at_ a s x r /\ at_ b s y r
  | _, _ => False
  end.

Lemma init_ok : forall c s, at_ c s (init c s) 0.
Proof. induction c; intros s; cbn [init at_ off Nat.mul]; repeat split; auto; lia. Qed.

Lemma up_nth : forall offs lo n i, up lo offs n -> i < length offs -> lo <= nth i offs 0 <= n.
Proof.
  induction offs as [|o offs IH]; intros lo n i U Hi; cbn [length] in Hi; [lia|]. cbn [up] in U. destruct U as [A U].
  destruct i; cbn [nth]; [apply up_le in U; lia|]. specialize (IH o n i U). lia.
Qed.
Lemma off_le : forall offs n r, up 0 offs n -> r <= length offs -> off offs r <= n.
Proof. intros offs n [|r] U H; cbn [off]; [lia|]. apply (up_nth offs 0 n r U). lia. Qed.

Lemma init_at_ok : forall t c rs s r, wft t -> cok t c rs -> r < length rs ->
  exists st, init_at c s (s + r) = Ok st /\ at_ c s st r.
Proof.
  induction t; intros c rs s r W K H; destruct c; cbn [cok wft init_at] in *; try tauto.
  - subst rs. rewrite map_length in H. replace (s + r - s) with r by lia. destruct (Nat.ltb_spec r (length d)); [|lia].
    eexists. split; [reflexivity|]. reflexivity.
  - destruct K as (crs & K & L & U & LA & ->). rewrite lrows_length in H by assumption. destruct W as [IV W].
    destruct (Nat.eqb_spec (s + r) 0) as [Z|Z].
    { replace r with 0 by lia. eexists. split; [reflexivity|]. apply init_ok. }
    assert (E : (if s + r =? s then Ok 0 else fetch_list_offset offs (s + r - 1 - s)) = Ok (off offs r)).
    { destruct (Nat.eqb_spec (s + r) s) as [E|E].
      - replace r with 0 by lia. reflexivity.
      - destruct r as [|r]; [lia|]. replace (s + S r - 1 - s) with r by lia. unfold fetch_list_offset.
        rewrite (nth_error_in _ offs r 0) by lia. reflexivity. }
    rewrite E. cbn [rbind]. pose proof (off_le offs _ r U ltac:(lia)) as OL.
    rewrite (cok_max t c crs W K (value_not_end _ IV)).
    destruct (Nat.ltb_spec (off offs r) (length crs)) as [Q|Q].
    + destruct (IHt c crs s (off offs r) W K Q) as (st & I & A). rewrite I. cbn [rbind]. eexists. split; [reflexivity|].
      cbn [at_]. auto.
    + eexists. split; [reflexivity|]. cbn [at_]. split; [reflexivity|]. split; [reflexivity|].
      assert (M : off offs r = max_entry c) by (rewrite (cok_max t c crs W K (value_not_end _ IV)); lia).
      destruct c; try exact M; destruct t; cbn [cok] in K; tauto.
  - destruct K as (-> & crs & K & L & ->). rewrite arows_length in H. destruct W as [IV W].
    destruct (Nat.eqb_spec (s + r) 0) as [Z|Z].
    { replace r with 0 by lia. eexists. split; [reflexivity|]. apply init_ok. }
    replace (s + r - s) with r by lia.
    rewrite (cok_max t c crs W K (value_not_end _ IV)).
    destruct (Nat.ltb_spec (r * size) (length crs)) as [Q|Q].
    + destruct (IHt c crs s (r * size) W K Q) as (st & I & A). rewrite I. cbn [rbind]. eexists. split; [reflexivity|].
      cbn [at_]. auto.
    + eexists. split; [reflexivity|]. cbn [at_]. split; [reflexivity|].
      assert (M : r * size = max_entry c) by (rewrite (cok_max t c crs W K (value_not_end _ IV)); nia).
      destruct c; try exact M; destruct t; cbn [cok] in K; tauto.
  - destruct K as (crs & K & L & ->). rewrite srows_length in H by assumption. destruct W as [IV W].
    destruct (IHt c crs s r W K) as (st & I & A); [lia|]. rewrite I. cbn [rbind]. eexists. split; [reflexivity|].
    cbn [at_]. auto.
  - destruct K as (ra & rb & Ka & Kb & L & ->). rewrite frows_length in H by assumption. destruct W as (_ & _ & Wa & Wb).
    destruct (IHt1 c1 ra s r Wa Ka) as (x & I & A); [lia|]. destruct (IHt2 c2 rb s r Wb Kb) as (y & J & B); [lia|].
    rewrite I. cbn [rbind]. rewrite J. cbn [rbind]. eexists. split; [reflexivity|]. cbn [at_]. auto.
  - eexists. split; reflexivity.
Qed.

Lemma vempty_ok : forall t c rs, cok t c rs -> vwf t (vempty c) 0.
Proof.
  induction t; intros c rs K; destruct c; cbn [cok vwf vempty] in *; try tauto.
  - destruct K as (crs & K & _). split; [reflexivity|]. exists 0. split; [eauto|]. intros o l [].
  - destruct K as (-> & crs & K & _). repeat split. eauto.
  - destruct K as (crs & K & _). split; [reflexivity|]. eauto.
  - destruct K as (ra & rb & Ka & Kb & _). eauto.
Qed.

Lemma lrows_skip : forall offs lo vd crs r, r <= length offs -> length offs = length vd ->
  skipn r (lrows lo offs vd crs) = lrows (match r with 0 => lo | S k => nth k offs 0 end) (skipn r offs) (skipn r vd) crs.
Proof.
  induction offs as [|o offs IH]; intros lo [|b vd] crs r H L; cbn [length] in *; try lia.
  - destruct r; [reflexivity|lia].
  - destruct r; [reflexivity|]. cbn [skipn lrows]. rewrite IH by lia. destruct r; reflexivity.
Qed.
Lemma lrows_first : forall offs lo vd crs n, firstn n (lrows lo offs vd crs) = lrows lo (firstn n offs) (firstn n vd) crs.
Proof.
  induction offs as [|o offs IH]; intros lo [|b vd] crs [|n]; cbn [lrows firstn]; try reflexivity. now rewrite IH.
Qed.
Lemma lrows_sub : forall offs vd crs r n, r <= length offs -> length offs = length vd ->
  sub (lrows 0 offs vd crs) r n = lrows (off offs r) (sub offs r n) (sub vd r n) crs.
Proof. intros. unfold sub. rewrite lrows_skip by assumption. apply lrows_first. Qed.
Lemma up_skip : forall offs lo r n, r <= length offs -> up lo offs n ->
  up (match r with 0 => lo | S k => nth k offs 0 end) (skipn r offs) n.
Proof.
  induction offs as [|o offs IH]; intros lo r n H U; cbn [length] in H.
  - destruct r; [exact U|lia].
  - destruct r; [exact U|]. cbn [skipn]. cbn [up] in U. destruct U as [_ U].
    specialize (IH o r n ltac:(lia) U). destruct r; exact IH.
Qed.
Lemma up_first : forall offs lo n k, up lo offs n -> up lo (firstn k offs) n.
Proof.
  induction offs as [|o offs IH]; intros lo n [|k] U; cbn [firstn up] in *; try exact U.
  - destruct U as [A U]. apply up_le in U. lia.
  - split; [tauto|]. apply IH. tauto.
Qed.
Lemma up_sub : forall offs r k n, r <= length offs -> up 0 offs n -> up (off offs r) (sub offs r k) n.
Proof. intros. unfold sub. apply up_first. exact (up_skip offs 0 r n H H0). Qed.
Lemma off_last : forall offs r n, r + n <= length offs -> off offs (r + n) = last (sub offs r n) (off offs r).
Proof.
  intros offs r n; revert r; induction n as [|n IH]; intros r H; [now rewrite Nat.add_0_r, sub_0|].
  replace (sub offs r (S n)) with (nth r offs 0 :: sub offs (S r) n).
  - rewrite last_cons_default. replace (r + S n) with (S r + n) by lia. rewrite IH by lia. reflexivity.
  - change (S n) with (1 + n). rewrite sub_plus, (sub_one _ offs r 0) by lia. now rewrite Nat.add_1_r.
Qed.

Lemma entries_length : forall os m base cur, length os = length m -> length (entries os m base cur) = length os.
Proof. induction os as [|o os IH]; intros [|b m] base cur H; cbn [entries length] in *; try lia. now rewrite IH by lia. Qed.
Lemma entries_ok : forall v crs cnt base os m cur, length os = length m -> up (base + cur) os (base + cnt) ->
  rows v cnt = sub crs base cnt ->
  map (erow v) (entries os m base cur) = lrows (base + cur) os m crs /\
  forall o l, In (Some (o, l)) (entries os m base cur) -> o + l <= cnt.
Proof.
  intros v crs cnt base. induction os as [|o os IH]; intros [|b m] cur L U R; cbn [length] in L; try discriminate.
  - split; [reflexivity|]. intros o l [].
  - cbn [up] in U. destruct U as [A U]. cbn [entries lrows map].
    replace (o - cur - base) with (o - (base + cur)) by lia. set (len := o - (base + cur)) in *.
    assert (O : o = base + (cur + len)) by lia. rewrite O in U. pose proof (up_le _ _ _ U) as LE.
    destruct (IH m (cur + len) ltac:(lia) U R) as [E B]. rewrite <- O in E. rewrite E. split.
    + f_equal. destruct b; [|reflexivity]. cbn [erow]. f_equal. rewrite (rows_sub v cnt) by lia. rewrite R. apply sub_sub. lia.
    + intros x l [Hx|Hx]; [|now apply B]. destruct b; [|discriminate]. injection Hx as <- <-. lia.
Qed.

Lemma sub_mid : forall A (a b c : list A) i n, length a = i -> length b = n -> sub (a ++ b ++ c) i n = b.
Proof.
  intros A a b c i n <- <-. rewrite <- (Nat.add_0_r (length a)), sub_app_r, sub_app_l by lia.
  unfold sub. cbn [skipn]. apply firstn_all.
Qed.
Lemma arows_sub : forall k vd crs r n, r + n <= length vd -> length crs = length vd * k ->
  sub (arows k vd crs) r n = arows k (sub vd r n) (sub crs (r * k) (n * k)).
Proof.
  intros k vd crs r n H L.
  assert (L1 : length (firstn r vd) = r) by (rewrite firstn_length; lia).
  assert (L2 : length (sub vd r n) = n) by (apply sub_length; lia).
  assert (E : arows k vd crs = arows k (firstn r vd) (firstn (r * k) crs) ++ arows k (sub vd r n) (sub crs (r * k) (n * k)) ++
    arows k (skipn n (skipn r vd)) (skipn (n * k) (skipn (r * k) crs))).
  { unfold sub. rewrite <- arows_app.
    - rewrite !firstn_skipn. rewrite <- arows_app; [now rewrite !firstn_skipn|]. rewrite L1, firstn_length. nia.
    - fold (sub vd r n). rewrite L2. fold (sub crs (r * k) (n * k)). apply sub_length. nia. }
  rewrite E. apply sub_mid; now rewrite arows_length.
Qed.
Lemma srows_sub : forall vd crs r n, sub (srows vd crs) r n = srows (sub vd r n) (sub crs r n).
Proof.
  assert (F : forall n vd crs, firstn n (srows vd crs) = srows (firstn n vd) (firstn n crs)).
  { induction n as [|n IH]; intros [|b vd] [|x crs]; cbn [firstn srows]; try reflexivity. now rewrite IH. }
  intros vd crs r n. unfold sub. rewrite <- F. f_equal. clear.
  revert vd crs. induction r as [|r IH]; intros [|b vd] [|x crs]; cbn [skipn srows]; try reflexivity.
  - destruct (skipn r vd); reflexivity.
  - apply IH.
Qed.
Lemma frows_sub : forall a b r n, sub (frows a b) r n = frows (sub a r n) (sub b r n).
Proof.
  assert (F : forall n a b, firstn n (frows a b) = frows (firstn n a) (firstn n b)).
  { induction n as [|n IH]; intros [|x a] [|y b]; cbn [firstn frows]; try reflexivity. now rewrite IH. }
  intros a b r n. unfold sub. rewrite <- F. f_equal. clear.
  revert a b. induction r as [|r IH]; intros [|x a] [|y b]; cbn [skipn frows]; try reflexivity.
  - destruct (skipn r a); reflexivity.
  - apply IH.
Qed.
Lemma sub_repeat : forall A (x : A) k r n, r + n <= k -> sub (repeat x k) r n = repeat x n.
Proof.
  intros A x k r n H. unfold sub. replace k with (r + (n + (k - r - n))) by lia. rewrite !repeat_app.
  rewrite skipn_app, skipn_all2 by (rewrite repeat_length; lia). rewrite repeat_length, Nat.sub_diag. cbn [skipn app].
  rewrite firstn_app, firstn_all2 by (rewrite repeat_length; lia). rewrite repeat_length, Nat.sub_diag.
  cbn [firstn]. apply app_nil_r.
Qed.

Lemma scan_ok : forall t c rs s st r n, wft t -> cok t c rs -> at_ c s st r -> r + n <= length rs ->
  exists v st', scan c s st n = Ok (v, st') /\ at_ c s st' (r + n) /\ vwf t v n /\ rows v n = sub rs r n.
Proof.
  intros t c rs s st r n W K A H.
  destruct (match st with SNone => true | _ => false end) eqn:SN.
  { destruct st; try discriminate.
    assert (TE : t <> TEnd). { intros ->. destruct c; cbn [cok at_] in *; tauto. }
    pose proof (cok_max t c rs W K TE) as M.
    assert (Z : r = max_entry c). { destruct c; cbn [at_] in A; auto; tauto. }
    assert (n = 0) by lia. subst n. rewrite Nat.add_0_r.
    exists (vempty c), SNone. split; [destruct c; reflexivity|]. split; [exact A|].
    split; [now apply vempty_ok with rs|]. now rewrite sub_0. }
  revert c rs s st r n W K A H SN.
  induction t; intros c rs s st r n W K A H SN; destruct c; cbn [cok wft] in K, W; try tauto;
    destruct st; try discriminate; cbn [at_] in A; try tauto; cbn [scan].
  - subst rs r0. rewrite map_length in H. replace (s + r - s) with r by lia. rewrite sub_length by lia.
    eexists _, _. split; [reflexivity|]. split; [cbn [at_]; lia|]. split; [cbn [vwf]; apply sub_length; lia|].
    rewrite vleaf_rows by (rewrite sub_length; lia). rewrite firstn_all2 by (rewrite sub_length; lia). apply map_sub.
  - destruct K as (crs & K & L & U & LA & ->). rewrite lrows_length in H by assumption. destruct W as [IV W].
    destruct A as (-> & -> & A). rename st into t0.
    destruct (Nat.eqb_spec n 0) as [->|NZ].
    { eexists _, _. split; [reflexivity|]. rewrite Nat.add_0_r. split; [cbn [at_]; auto|].
      split; [|now rewrite sub_0].
      cbn [vempty vwf]. split; [reflexivity|]. exists 0. split; [now apply vempty_ok with crs|]. intros o l []. }
    replace (s + r - s) with r by lia.
    assert (L1 : length (sub offs r n) = n) by (apply sub_length; lia).
    assert (L2 : length (sub vd r n) = n) by (apply sub_length; lia).
    pose proof (up_sub offs r n _ ltac:(lia) U) as US.
    pose proof (off_last offs r n ltac:(lia)) as OL.
    assert (LE : last (sub offs r n) 0 = off offs (r + n)).
    { rewrite OL. destruct (sub offs r n) as [|x l]; [cbn [length] in L1; lia|]. apply last_any. }
    pose proof (off_le offs _ (r + n) U ltac:(lia)) as OB.
    assert (OM : off offs r <= off offs (r + n)).
    { rewrite OL. apply up_le with (sub offs r n). eapply up_last_any. exact US. }
    rewrite (lrows_sub offs vd crs r n) by lia.
    remember (sub offs r n) as os eqn:Eos. destruct os as [|o1 os']; [cbn [length] in L1; lia|].
    cbn zeta. rewrite LE, L1.
    set (cnt := off offs (r + n) - off offs r).
    assert (OC : off offs r + cnt = off offs (r + n)) by lia.
    pose proof (cok_max t c crs W K (value_not_end _ IV)) as M.
    assert (US' : up (off offs r + 0) (o1 :: os') (off offs r + cnt)).
    { rewrite Nat.add_0_r, OC, OL. eapply up_last_any. exact US. }
    assert (FIN : forall w t', at_ c s t' (off offs r + cnt) -> vwf t w cnt -> rows w cnt = sub crs (off offs r) cnt ->
      at_ (CList offs vd c) s (SList (s + r + n) (off offs (r + n)) t') (r + n) /\
      vwf (TList t) (VList (entries (o1 :: os') (sub vd r n) (off offs r) 0) w) n /\
      rows (VList (entries (o1 :: os') (sub vd r n) (off offs r) 0) w) n = lrows (off offs r) (o1 :: os') (sub vd r n) crs).
    { intros w t' A' Vw Rw.
      destruct (entries_ok w crs cnt (off offs r) (o1 :: os') (sub vd r n) 0 ltac:(lia) US' Rw) as [E B].
      rewrite Nat.add_0_r in E.
      split; [|split].
      - cbn [at_]. rewrite OC in A'. split; [lia|]. split; [reflexivity|exact A'].
      - cbn [vwf]. split; [rewrite entries_length; lia|]. exists cnt. auto.
      - rewrite vlist_rows by (rewrite entries_length; lia).
        rewrite firstn_all2 by (rewrite entries_length; lia). exact E. }
    destruct (Nat.ltb_spec 0 cnt) as [P|P].
    + assert (SN' : (match t0 with SNone => true | _ => false end) = false).
      { destruct t0; try reflexivity. exfalso.
        assert (off offs r = max_entry c) by (destruct c; cbn [at_] in A; auto; tauto). lia. }
      assert (CH : checked c && (s + max_entry c <? row_index t0 + cnt) = false).
      { destruct c; cbn [checked andb]; try reflexivity; destruct t0; cbn [at_] in A; try tauto; try discriminate;
          apply Nat.ltb_ge; cbn [row_index]; lia. }
      rewrite CH.
      destruct (IHt c crs s t0 (off offs r) cnt W K A ltac:(lia) SN') as (w & t' & Sc & A' & Vw & Rw).
      rewrite Sc. cbn [rbind]. destruct (FIN w t' A' Vw Rw) as (F1 & F2 & F3).
      eexists _, _. split; [reflexivity|]. auto.
    + assert (Z : cnt = 0) by lia.
      destruct (FIN (vempty c) t0) as (F1 & F2 & F3).
      * rewrite Z, Nat.add_0_r. exact A.
      * rewrite Z. now apply vempty_ok with crs.
      * rewrite Z, sub_0. reflexivity.
      * eexists _, _. split; [reflexivity|]. auto.
  - destruct K as (-> & crs & K & L & ->). rewrite arows_length in H. destruct W as [IV W]. destruct A as (-> & A).
    replace (s + r - s) with r by lia.
    assert (X : exists v st', scan c s st (n * size) = Ok (v, st') /\ at_ c s st' (r * size + n * size) /\ vwf t v (n * size) /\
      rows v (n * size) = sub crs (r * size) (n * size)).
    { destruct (match st with SNone => true | _ => false end) eqn:SN'.
      - destruct st; try discriminate.
        assert (Z : r * size = max_entry c) by (destruct c; cbn [at_] in A; auto; tauto).
        rewrite (cok_max t c crs W K (value_not_end _ IV)) in Z. assert (n * size = 0) as -> by nia.
        exists (vempty c), SNone. split; [destruct c; reflexivity|]. rewrite Nat.add_0_r. split; [exact A|].
        split; [now apply vempty_ok with crs|]. now rewrite sub_0.
      - apply IHt; auto. nia. }
    destruct X as (w & t' & Sc & A' & Vw & Rw). rewrite Sc. cbn [rbind]. rewrite sub_length by lia.
    eexists _, _. split; [reflexivity|]. split; [cbn [at_]; rewrite Nat.mul_add_distr_r; split; [lia|exact A']|].
    split; [cbn [vwf]; split; [reflexivity|]; split; [apply sub_length; lia|exact Vw]|].
    rewrite varray_rows by (rewrite sub_length; lia). rewrite firstn_all2 by (rewrite sub_length; lia).
    rewrite Rw. symmetry. now apply arows_sub.
  - destruct K as (crs & K & L & ->). rewrite srows_length in H by assumption. destruct W as [IV W]. destruct A as (-> & A).
    replace (s + r - s) with r by lia.
    assert (X : exists v st', scan c s st n = Ok (v, st') /\ at_ c s st' (r + n) /\ vwf t v n /\
      rows v n = sub crs r n).
    { destruct (match st with SNone => true | _ => false end) eqn:SN'.
      - destruct st; try discriminate.
        assert (Z : r = max_entry c) by (destruct c; cbn [at_] in A; auto; tauto).
        rewrite (cok_max t c crs W K) in Z by (intros ->; exact IV). assert (n = 0) as -> by lia.
        exists (vempty c), SNone. split; [destruct c; reflexivity|]. rewrite Nat.add_0_r. split; [exact A|].
        split; [now apply vempty_ok with crs|]. now rewrite sub_0.
      - apply IHt; auto. lia. }
    destruct X as (w & t' & Sc & A' & Vw & Rw). rewrite Sc. cbn [rbind]. rewrite sub_length by lia.
    eexists _, _. split; [reflexivity|]. split; [cbn [at_]; split; [lia|exact A']|].
    split; [cbn [vwf]; split; [apply sub_length; lia|exact Vw]|].
    rewrite vstruct_rows by (rewrite sub_length; lia). rewrite firstn_all2 by (rewrite sub_length; lia).
    rewrite Rw. symmetry. apply srows_sub.
  - destruct K as (ra & rb & Ka & Kb & L & ->). rewrite frows_length in H by assumption. destruct W as (IV & NV & Wa & Wb).
    destruct A as [A B].
    assert (X : forall t0 c0 st0 rs0, (wft t0 -> cok t0 c0 rs0 -> at_ c0 s st0 r -> r + n <= length rs0 ->
        (match st0 with SNone => true | _ => false end) = false ->
        exists v st', scan c0 s st0 n = Ok (v, st') /\ at_ c0 s st' (r + n) /\ vwf t0 v n /\ rows v n = sub rs0 r n) ->
      wft t0 -> cok t0 c0 rs0 -> at_ c0 s st0 r -> r + n <= length rs0 ->
      exists v st', scan c0 s st0 n = Ok (v, st') /\ at_ c0 s st' (r + n) /\ vwf t0 v n /\ rows v n = sub rs0 r n).
    { intros t0 c0 st0 rs0 IH W0 K0 A0 H0. destruct (match st0 with SNone => true | _ => false end) eqn:SN'; [|now apply IH].
      destruct st0; try discriminate.
      assert (TE : t0 <> TEnd). { intros ->. destruct c0; cbn [cok at_] in *; tauto. }
      assert (Z : r = max_entry c0) by (destruct c0; cbn [at_] in A0; auto; tauto).
      rewrite (cok_max t0 c0 rs0 W0 K0 TE) in Z. assert (n = 0) as -> by lia.
      exists (vempty c0), SNone. split; [destruct c0; reflexivity|]. rewrite Nat.add_0_r. split; [exact A0|].
      split; [now apply vempty_ok with rs0|]. now rewrite sub_0. }
    destruct (X t1 c1 st1 ra (IHt1 c1 ra s st1 r n) Wa Ka A ltac:(lia)) as (v & x' & Sa & A' & Va & Ra).
    destruct (X t2 c2 st2 rb (IHt2 c2 rb s st2 r n) Wb Kb B ltac:(lia)) as (w & y' & Sb & B' & Vb & Rb).
    rewrite Sa. cbn [rbind]. rewrite Sb. cbn [rbind]. eexists _, _. split; [reflexivity|].
    split; [cbn [at_]; auto|]. split; [cbn [vwf]; auto|]. rewrite vboth_rows, Ra, Rb. symmetry. apply frows_sub.
  - eexists _, _. split; [reflexivity|]. split; [exact I|]. split; [exact I|].
    rewrite vend_rows. rewrite K. symmetry. apply sub_repeat. exact H.
Qed.
Lemma scan_all_ok : forall t c rs s ns st r, wft t -> cok t c rs -> at_ c s st r -> r + list_sum ns <= length rs ->
  exists vs, scan_all c s st ns = Ok vs /\ map snd vs = ns /\ rows_of vs = sub rs r (list_sum ns).
Proof.
  intros t c rs s. induction ns as [|n ns IH]; intros st r W K A H.
  - exists []. split; [reflexivity|]. split; [reflexivity|]. change (list_sum []) with 0. now rewrite sub_0.
  - change (list_sum (n :: ns)) with (n + list_sum ns) in *. cbn [scan_all].
    destruct (scan_ok t c rs s st r n W K A ltac:(lia)) as (v & st' & Sc & A' & V & R). rewrite Sc. cbn [rbind].
    destruct (IH st' (r + n) W K A' ltac:(lia)) as (vs & E & M & Q). rewrite E. cbn [rbind].
    eexists. split; [reflexivity|]. split; [cbn [map snd]; now rewrite M|].
    unfold rows_of in *. cbn [flat_map fst snd]. rewrite Q, R. symmetry. apply sub_plus.
Qed.

(** ** Rows by id *)
Lemma vlen_ok : forall t v n, is_value t -> vwf t v n -> vlen v = n.
Proof. intros t v n I V. destruct t, v; cbn [vwf vlen is_value] in *; try tauto. Qed.
Lemma rebase_length : forall es a, length (rebase a es) = length es.
Proof. induction es as [|[[o l]|] es IH]; intros a; cbn [rebase length]; [reflexivity| |]; now rewrite IH. Qed.
Lemma rebase_rows : forall x w n fs pre post, rows x n = pre ++ map (vrow w) (child_rows fs) ++ post ->
  map (erow x) (rebase (length pre) fs) = map (erow w) fs /\
  forall o l, In (Some (o, l)) (rebase (length pre) fs) -> o + l <= n.
Proof.
  intros x w n. induction fs as [|[[o l]|] fs IH]; intros pre post R; cbn [rebase map child_rows] in *.
  - split; [reflexivity|]. intros o l [].
  - rewrite map_app, <- app_assoc in R. pose proof R as R0. rewrite app_assoc in R.
    destruct (IH _ _ R) as [E B]. rewrite app_length, map_length, seq_length in E, B.
    assert (N : length pre + l <= n).
    { rewrite <- (rows_length x n), R0, !app_length, map_length, seq_length. lia. }
    split.
    + rewrite E. f_equal. cbn [erow]. f_equal. rewrite (rows_sub x n) by exact N. rewrite R0.
      apply sub_mid; [reflexivity|]. now rewrite map_length, seq_length.
    + intros o' l' [H|H]; [injection H as <- <-; exact N|now apply B].
  - destruct (IH _ _ R) as [E B]. split; [now rewrite E|]. intros o l [H|H]; [discriminate|now apply B].
Qed.
Lemma erow_same : forall x v m n es post, rows x n = rows v m ++ post -> (forall o l, In (Some (o, l)) es -> o + l <= m) ->
  map (erow x) es = map (erow v) es.
Proof.
  intros x v m n es post R B. apply map_ext_in. intros [[o l]|] H; [|reflexivity]. cbn [erow]. f_equal.
  specialize (B o l H). assert (m <= n). { rewrite <- (rows_length x n), R, app_length, rows_length. lia. }
  rewrite (rows_sub x n), (rows_sub v m) by lia. rewrite R. apply sub_app_l. rewrite rows_length. lia.
Qed.
Lemma vlist_all : forall es v n, length es = n -> rows (VList es v) n = map (erow v) es.
Proof. intros. rewrite vlist_rows by lia. now rewrite firstn_all2 by lia. Qed.

Lemma copy_ok : forall t v w a b, wft t -> no_arrays t -> vwf t v a -> vwf t w b ->
  vwf t (copy v w) (a + b) /\ rows (copy v w) (a + b) = rows v a ++ rows w b.
Proof.
  induction t; intros v w a b W NA V X; destruct v, w; cbn [vwf no_arrays wft copy] in *; try tauto.
  - rewrite app_length. split; [lia|]. rewrite !vleaf_rows by (rewrite ?app_length; lia).
    rewrite !firstn_all2 by (rewrite ?app_length; lia). apply map_app.
  - destruct V as (LV & m & V & BV), X as (LX & k & X & BX). destruct W as [IV W].
    rewrite (vlen_ok t v m IV V).
    pose proof (child_rows_in es0 k BX) as B.
    destruct (take_ok t w k (child_rows es0) W NA X B) as [TV _].
    pose proof (take_rows t w k (child_rows es0) W NA X B) as TR.
    destruct (IHt v (take w (child_rows es0)) m _ W NA V TV) as [CV CR]. rewrite TR in CR.
    set (x := copy v (take w (child_rows es0))) in *. set (n := m + length (child_rows es0)) in *.
    assert (CR' : rows x n = rows v m ++ map (vrow w) (child_rows es0) ++ []) by now rewrite app_nil_r.
    destruct (rebase_rows x w n es0 (rows v m) [] CR') as [E BE]. rewrite rows_length in E, BE.
    split.
    + split; [rewrite app_length, rebase_length; lia|]. exists n. split; [exact CV|].
      intros o l H. apply in_app_or in H. destruct H as [H|H]; [|now apply BE]. specialize (BV o l H). lia.
    + rewrite !vlist_all by (rewrite ?app_length, ?rebase_length; lia). rewrite map_app, E. f_equal.
      apply erow_same with m n (map (vrow w) (child_rows es0)); assumption.
  - destruct V as [LV V], X as [LX X]. destruct W as [IV W]. destruct (IHt v w a b W NA V X) as [CV CR].
    split; [split; [rewrite app_length; lia|exact CV]|].
    rewrite !vstruct_rows by (rewrite ?app_length; lia). rewrite !firstn_all2 by (rewrite ?app_length; lia).
    rewrite CR. apply srows_app. rewrite rows_length. lia.
  - destruct V as [Va Vb], X as [Xa Xb], NA as [Na Nb], W as (_ & _ & Wa & Wb).
    destruct (IHt1 _ _ _ _ Wa Na Va Xa) as [Ca Ra], (IHt2 _ _ _ _ Wb Nb Vb Xb) as [Cb Rb].
    split; [auto|]. rewrite !vboth_rows, Ra, Rb. apply frows_app. now rewrite !rows_length.
  - split; [exact I|]. rewrite !vend_rows. apply repeat_app.
Qed.

Lemma fetch_ok : forall t c rs s r res k, wft t -> arrays_outside t -> cok t c rs -> r < length rs -> vwf t res k ->
  exists res', fetch_row c s (s + r) res = Ok res' /\ vwf t res' (k + 1) /\ rows res' (k + 1) = rows res k ++ sub rs r 1.
Proof.
  induction t; intros c rs s r res k W AO K H V; destruct c, res; cbn [cok vwf wft arrays_outside fetch_row] in *; try tauto.
  - subst rs. rewrite map_length in H. replace (s + r - s) with r by lia. rewrite (nth_error_in _ d r None) by lia.
    eexists. split; [reflexivity|]. cbn [vwf]. split; [rewrite app_length; cbn [length]; lia|].
    rewrite !vleaf_rows by (rewrite ?app_length; cbn [length]; lia).
    rewrite !firstn_all2 by (rewrite ?app_length; cbn [length]; lia).
    rewrite map_app, <- map_sub, (sub_one _ d r None) by lia. reflexivity.
  - destruct K as (crs & K & L & U & LA & ->). rewrite lrows_length in H by assumption. destruct W as [IV W].
    destruct V as (LV & m & V & BV).
    assert (E : (if s + r =? s then Ok 0 else fetch_list_offset offs (s + r - 1 - s)) = Ok (off offs r)).
    { destruct (Nat.eqb_spec (s + r) s) as [E|E].
      - replace r with 0 by lia. reflexivity.
      - destruct r as [|r]; [lia|]. replace (s + S r - 1 - s) with r by lia. unfold fetch_list_offset.
        rewrite (nth_error_in _ offs r 0) by lia. reflexivity. }
    rewrite E. cbn [rbind]. replace (s + r - s) with r by lia. unfold fetch_list_offset.
    rewrite (nth_error_in _ offs r 0) by lia. cbn [rbind]. rewrite (nth_error_in _ vd r false) by lia.
    pose proof (off_le offs _ (S r) U ltac:(lia)) as OB.
    rewrite lrows_sub by lia. rewrite (sub_one _ offs r 0), (sub_one _ vd r false) by lia. cbn [lrows].
    change (nth r offs 0) with (off offs (S r)). set (a := off offs r) in *. set (b := off offs (S r)) in *.
    rewrite (vlen_ok t res m IV V).
    destruct (nth r vd false); [destruct (Nat.ltb_spec 0 (b - a)) as [P|P]|].
    + destruct (init_at_ok t c crs s a W K ltac:(lia)) as (st & I & A). rewrite I. cbn [rbind].
      destruct (scan_ok t c crs s st a (b - a) W K A ltac:(lia)) as (w & st' & Sc & _ & Vw & Rw). rewrite Sc. cbn [rbind].
      destruct (copy_ok t res w m (b - a) W AO V Vw) as [CV CR].
      eexists. split; [reflexivity|]. cbn [vwf]. split.
      * split; [rewrite app_length; cbn [length]; lia|]. exists (m + (b - a)). split; [exact CV|].
        intros o l Hi. apply in_app_or in Hi. destruct Hi as [Hi|[Hi|[]]]; [specialize (BV o l Hi); lia|].
        injection Hi as <- <-. lia.
      * rewrite !vlist_all by (rewrite ?app_length; cbn [length]; lia). rewrite map_app. f_equal.
        -- apply erow_same with m (m + (b - a)) (rows w (b - a)); assumption.
        -- cbn [map erow]. do 2 f_equal. rewrite (rows_sub _ (m + (b - a))) by lia. rewrite CR, Rw.
           rewrite <- (app_nil_r (sub crs a (b - a))) at 1. apply sub_mid; [apply rows_length|apply sub_length; lia].
    + eexists. split; [reflexivity|]. cbn [vwf]. split.
      * split; [rewrite app_length; cbn [length]; lia|]. exists m. split; [exact V|].
        intros o l Hi. apply in_app_or in Hi. destruct Hi as [Hi|[Hi|[]]]; [exact (BV o l Hi)|].
        injection Hi as <- <-. lia.
      * rewrite !vlist_all by (rewrite ?app_length; cbn [length]; lia). rewrite map_app. f_equal.
        cbn [map erow seq]. replace (b - a) with 0 by lia. now rewrite sub_0.
    + eexists. split; [reflexivity|]. cbn [vwf]. split.
      * split; [rewrite app_length; cbn [length]; lia|]. exists m. split; [exact V|].
        intros o l Hi. apply in_app_or in Hi. destruct Hi as [Hi|[Hi|[]]]; [exact (BV o l Hi)|discriminate].
      * rewrite !vlist_all by (rewrite ?app_length; cbn [length]; lia). rewrite map_app. reflexivity.
  - destruct K as (-> & crs & K & L & ->). rewrite arows_length in H. destruct W as [IV W]. destruct AO as [PS NA].
    destruct V as (-> & LV & V).
    replace (s + r - s) with r by lia. rewrite (nth_error_in _ vd r false) by lia.
    destruct (init_at_ok t c crs s (r * size) W K ltac:(nia)) as (st & I & A). rewrite I. cbn [rbind].
    destruct (scan_ok t c crs s st (r * size) size W K A ltac:(nia)) as (w & st' & Sc & _ & Vw & Rw). rewrite Sc. cbn [rbind].
    destruct (copy_ok t res w (k * size) size W NA V Vw) as [CV CR].
    replace (k * size + size) with ((k + 1) * size) in CV, CR by lia.
    eexists. split; [reflexivity|]. cbn [vwf]. split.
    + split; [reflexivity|]. split; [rewrite app_length; cbn [length]; lia|exact CV].
    + rewrite !varray_rows by (rewrite ?app_length; cbn [length]; lia).
      rewrite !firstn_all2 by (rewrite ?app_length; cbn [length]; lia). rewrite CR, Rw.
      rewrite arows_app by (rewrite rows_length; lia). f_equal.
      rewrite (arows_sub size vd crs r 1) by lia. rewrite (sub_one _ vd r false) by lia. now rewrite Nat.mul_1_l.
  - destruct K as (crs & K & L & ->). rewrite srows_length in H by assumption. destruct W as [IV W].
    destruct V as (LV & V). replace (s + r - s) with r by lia. rewrite (nth_error_in _ vd r false) by lia.
    destruct (IHt c crs s r res k W AO K ltac:(lia) V) as (res' & F & V' & R). rewrite F. cbn [rbind].
    eexists. split; [reflexivity|]. cbn [vwf]. split; [split; [rewrite app_length; cbn [length]; lia|exact V']|].
    rewrite !vstruct_rows by (rewrite ?app_length; cbn [length]; lia).
    rewrite !firstn_all2 by (rewrite ?app_length; cbn [length]; lia). rewrite R.
    rewrite srows_app by (rewrite rows_length; lia). f_equal. rewrite srows_sub. now rewrite (sub_one _ vd r false) by lia.
  - destruct K as (ra & rb & Ka & Kb & L & ->). rewrite frows_length in H by assumption. destruct W as (_ & _ & Wa & Wb).
    destruct V as [Va Vb], AO as [Aa Ab].
    destruct (IHt1 _ _ s r _ k Wa Aa Ka ltac:(lia) Va) as (x & F & Vx & Rx),
             (IHt2 _ _ s r _ k Wb Ab Kb ltac:(lia) Vb) as (y & G & Vy & Ry).
    rewrite F. cbn [rbind]. rewrite G. cbn [rbind]. eexists. split; [reflexivity|]. cbn [vwf]. split; [auto|].
    rewrite !vboth_rows, Rx, Ry. rewrite frows_app by (now rewrite !rows_length). f_equal. symmetry. apply frows_sub.
  - eexists. split; [reflexivity|]. split; [exact I|]. rewrite !vend_rows, repeat_app. f_equal.
    rewrite K. symmetry. apply (sub_repeat _ NoFields (length rs) r 1). lia.
Qed.
Lemma fetch_all_ok : forall t c rs s ids res k, wft t -> arrays_outside t -> cok t c rs ->
  (forall i, In i ids -> i < length rs) -> vwf t res k ->
  exists res', fetch_all c s (map (Nat.add s) ids) res = Ok res' /\ vwf t res' (k + length ids) /\
    rows res' (k + length ids) = rows res k ++ map (fun i => nth i rs Junk) ids.
Proof.
  intros t c rs s. induction ids as [|i ids IH]; intros res k W AO K B V; cbn [map fetch_all].
  - exists res. cbn [length]. rewrite Nat.add_0_r, app_nil_r. auto.
  - destruct (fetch_ok t c rs s i res k W AO K (B i (or_introl eq_refl)) V) as (r1 & F & V1 & R1). rewrite F. cbn [rbind].
    destruct (IH r1 (k + 1) W AO K (fun j Hj => B j (or_intror Hj)) V1) as (r2 & F2 & V2 & R2).
    exists r2. split; [exact F2|]. cbn [length]. replace (k + S (length ids)) with (k + 1 + length ids) by lia.
    split; [exact V2|]. rewrite R2, R1, <- app_assoc. f_equal.
    rewrite (sub_one _ rs i Junk) by (apply B; now left). reflexivity.
Qed.

(** ** Theorems *)
Lemma filled : forall t bs, wft t -> Forall (batch_ok t) bs -> exists c, append_all (new t) bs = Ok c /\ cok t c (rows_of bs).
Proof. intros t bs W F. exact (append_all_ok t bs (new t) [] W (cok_new t) F). Qed.
Lemma scanned : forall t bs s ns, wft t -> Forall (batch_ok t) bs -> list_sum ns <= length (rows_of bs) ->
  exists c vs, append_all (new t) bs = Ok c /\ scan_all c s (init c s) ns = Ok vs /\ map snd vs = ns /\
    rows_of vs = firstn (list_sum ns) (rows_of bs).
Proof.
  intros t bs s ns W F H. destruct (filled t bs W F) as (c & A & K).
  destruct (scan_all_ok t c _ s ns (init c s) 0 W K (init_ok c s) H) as (vs & S1 & S2 & S3). exists c, vs. auto.
Qed.
Lemma scanned_from : forall t bs s r ns, wft t -> Forall (batch_ok t) bs -> r < length (rows_of bs) ->
  r + list_sum ns <= length (rows_of bs) ->
  exists c st vs, append_all (new t) bs = Ok c /\ init_at c s (s + r) = Ok st /\ scan_all c s st ns = Ok vs /\ map snd vs = ns /\
    rows_of vs = firstn (list_sum ns) (skipn r (rows_of bs)).
Proof.
  intros t bs s r ns W F L H. destruct (filled t bs W F) as (c & A & K).
  destruct (init_at_ok t c _ s r W K L) as (st & I & At).
  destruct (scan_all_ok t c _ s ns st r W K At H) as (vs & S1 & S2 & S3). exists c, st, vs. auto.
Qed.
Lemma fetched : forall t bs s ids, wft t -> arrays_outside t -> Forall (batch_ok t) bs ->
  Forall (fun i => i < length (rows_of bs)) ids ->
  exists c v, append_all (new t) bs = Ok c /\ fetch_all c s (map (Nat.add s) ids) (vempty c) = Ok v /\
    rows v (length ids) = map (fun i => nth i (rows_of bs) Junk) ids.
Proof.
  intros t bs s ids W AO F B. destruct (filled t bs W F) as (c & A & K).
  rewrite Forall_forall in B.
  destruct (fetch_all_ok t c _ s ids (vempty c) 0 W AO K B (vempty_ok t c _ K)) as (v & G & _ & R). exists c, v. auto.
Qed.
Lemma copied : forall t v w a b, wft t -> no_arrays t -> vwf t v a -> vwf t w b ->
  rows (copy v w) (a + b) = rows v a ++ rows w b.
Proof. intros. now apply copy_ok with t. Qed.
Lemma sliced : forall t v m ix, wft t -> no_arrays t -> vwf t v m -> Forall (fun i => i < m) ix ->
  rows (take v ix) (length ix) = map (fun i => nth i (rows v m) Junk) ix.
Proof.
  intros t v m ix W NA V B. rewrite Forall_forall in B. rewrite (take_rows t v m ix W NA V B).
  apply map_ext_in. intros i Hi. symmetry. apply rows_nth. now apply B.
Qed.

(** Lists of arrays of two: the second list lies in front of the first. *)
Definition ex_t : ty := TList (TArray 2 TLeaf).
Definition ex_v : vec :=
  VList [Some (1, 2); Some (0, 1)] (VArray 2 [true; true; true] (VLeaf [Some 1%N; Some 2%N; Some 3%N; None; Some 5%N; Some 6%N])).
Definition ex_in : vec :=
  VList [Some (0, 1); Some (1, 2)] (VArray 2 [true; true; true] (VLeaf [Some 1%N; Some 2%N; Some 3%N; None; Some 5%N; Some 6%N])).
Lemma order_refuted : exists t v n, wft t /\ vwf t v n /\ append_all (new t) [(v, n)] = Err UB.
Proof.
  exists ex_t, ex_v, 2. split; [cbn; auto|]. split; [|reflexivity].
  cbn. split; [reflexivity|]. exists 3. split; [auto|]. intros o l [H|[H|[]]]; injection H as <- <-; lia.
Qed.
Lemma fetch_refuted : exists t bs i c v, wft t /\ Forall (batch_ok t) bs /\ i < length (rows_of bs) /\
  append_all (new t) bs = Ok c /\ fetch_all c 0 [i] (vempty c) = Ok v /\ nth_error (rows_of bs) i <> nth_error (rows v 1) 0.
Proof.
  exists ex_t, [(ex_in, 2)], 1.
  eexists _, _. split; [cbn; auto|]. split; [|split; [|split; [|split]]].
  - constructor; [|constructor]. exists 2. split; [|split; [auto|]].
    + cbn. split; [reflexivity|]. exists 3. split; [auto|]. intros o l [H|[H|[]]]; injection H as <- <-; lia.
    + cbn. right. auto.
  - cbn. lia.
  - reflexivity.
  - reflexivity.
  - vm_compute. discriminate.
Qed.
Lemma copy_refuted : exists t v w a b, wft t /\ vwf t v a /\ vwf t w b /\ rows (copy v w) (a + b) <> rows v a ++ rows w b.
Proof.
  exists (TArray 2 TLeaf), (VArray 2 [true] (VLeaf [Some 1%N; Some 2%N])), (VArray 2 [true] (VLeaf [Some 3%N; Some 4%N])), 1, 1.
  cbn. repeat split; auto. discriminate.
Qed.

(** A struct of a number, a list of structs and an array of lists. *)
Definition ex_ty : ty :=
  TStruct (TBoth TLeaf (TBoth (TList (TStruct (TBoth TLeaf TEnd))) (TBoth (TArray 2 (TList TLeaf)) TEnd))).
Definition ex_batch : vec :=
  VStruct [true; false; true]
   (VBoth (VLeaf [Some 7%N; None; Some 9%N])
   (VBoth (VList [Some (2, 1); None; Some (0, 3)] (VStruct [true; false; true] (VBoth (VLeaf [Some 1%N; None; Some 3%N]) VEnd)))
   (VBoth (VArray 2 [true; true; false]
            (VList [Some (0, 2); Some (1, 1); None; Some (2, 0); Some (0, 0); None] (VLeaf [Some 4%N; Some 5%N]))) VEnd))).
Lemma ex_batch_ok : batch_ok ex_ty (ex_batch, 3).
Proof.
  exists 3. split; [|split; [auto|]].
  - cbn [fst ex_ty ex_batch vwf length Nat.mul Nat.add]. split; [reflexivity|]. split; [reflexivity|]. split; [|split; [|exact I]].
    + split; [reflexivity|]. exists 3. split; [cbn; auto|].
      intros o l [H|[H|[H|[]]]]; try discriminate; injection H as <- <-; lia.
    + split; [reflexivity|]. split; [reflexivity|]. split; [reflexivity|]. exists 2. split; [reflexivity|].
      intros o l H. cbn [In] in H. repeat (destruct H as [H|H]; [try discriminate; injection H as <- <-; lia|]). destruct H.
  - cbn [fst snd ex_ty ex_batch in_order]. cbn [no_arrays]. auto 10.
Qed.
