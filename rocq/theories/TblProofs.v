From Coq Require Import ZArith Lia Bool.
From Verif Require Import Bytes Outcome ByteOrd IndexModel QueryModel QueryProofs LValModel GroupModel TblModel TblSpec.
From Verif Require TapeModel LValSpec.
Local Open Scope nat_scope.

(** ** Columns by name *)
Lemma index_nth k cs j : index_of k cs = Some j -> exists t, nth_error cs j = Some (k, t).
Proof.
  revert j. induction cs as [|[k' t] cs IH]; intros j H; cbn in H; [discriminate|].
  destruct (beqb_spec k k') as [->|N].
  - injection H as <-. exists t. reflexivity.
  - destruct (index_of k cs) as [q|] eqn:E; [|discriminate]. injection H as <-. destruct (IH q eq_refl) as [t' T]. exists t'. exact T.
Qed.

Lemma index_cell k cs row : length row = length cs ->
  cell_of cs row k = match index_of k cs with Some j => nth_error row j | None => None end.
Proof.
  unfold cell_of. revert row. induction cs as [|[k' t] cs IH]; intros [|x row] L; try discriminate; cbn; [reflexivity|].
  destruct (beqb k k'); [reflexivity|]. rewrite (IH row) by (cbn in L; lia). destruct (index_of k cs); reflexivity.
Qed.

Lemma index_in k cs : (exists t, In (k, t) cs) <-> index_of k cs <> None.
Proof.
  induction cs as [|[k' t] cs IH]; cbn.
  - split; [intros [? []]|congruence].
  - destruct (beqb_spec k k') as [->|N].
    + split; [discriminate|]. intros _. exists t. left. reflexivity.
    + split.
      * intros [t' [H|H]]; [congruence|]. destruct (index_of k cs); [discriminate|]. apply IH. eauto.
      * intros H. destruct (index_of k cs) eqn:E; [|exfalso; apply H; reflexivity]. destruct (proj2 IH) as [t' T]; [discriminate|]. eauto.
Qed.

Lemma index_lt k cs j : index_of k cs = Some j -> j < length cs.
Proof. intros H. destruct (index_nth k cs j H) as [t T]. apply nth_error_Some. congruence. Qed.

(** ** Rows of a table *)
Definition row_ok (cs : list (list byte * lty)) (row : list (option lval)) : Prop :=
  Forall2 (fun col o => cell_ok (snd col) o) cs row.

Lemma row_length cs row : row_ok cs row -> length row = length cs.
Proof. induction 1; cbn; congruence. Qed.

Lemma row_cell cs row j k t : row_ok cs row -> nth_error cs j = Some (k, t) -> exists o, nth_error row j = Some o /\ cell_ok t o.
Proof.
  intros R. revert j. induction R as [|c o cs row H R IH]; intros j E; [destruct j; discriminate|].
  destruct j as [|j]; cbn in *.
  - injection E as ->. exists o. auto.
  - apply IH. exact E.
Qed.

Lemma table_row c i row : table c -> nth_error (rws c) i = Some row -> row_ok (cols c) row.
Proof. intros [_ F] E. rewrite Forall_forall in F. apply F. apply nth_error_In with i. exact E. Qed.

Lemma cell_storable t v : cell_ok t (Some v) -> storable t = true /\ type_of v = t /\ v <> VNull.
Proof.
  destruct v as [|s z|s]; cbn; [tauto| |].
  - intros (-> & B & _). repeat split; [|discriminate]. destruct t; try discriminate; reflexivity.
  - intros ->. repeat split. discriminate.
Qed.
Lemma read_cell c i j row o k t : nth_error (rws c) i = Some row -> nth_error (cols c) j = Some (k, t) -> nth_error row j = Some o ->
  cell_ok t o ->
  read c j i = Ok (match o with Some v => v | None => vzero t end).
Proof. intros E C O K. unfold read. rewrite E, C, O. destruct o as [v|]; [|reflexivity]. destruct (cell_storable t v K) as [-> _]. reflexivity. Qed.

Lemma cast_own v t : type_of v = t -> cast_as v t = Some v.
Proof. intros <-. unfold cast_as, lty_eqb. destruct (lty_eq_dec (type_of v) (type_of v)); congruence. Qed.
Lemma put_own t v : cell_ok t (Some v) -> put t v = Ok (Some v).
Proof.
  intros C. destruct (cell_storable t v C) as (S & T & N). unfold put. rewrite (cast_own v t T).
  destruct v; [congruence| |]; rewrite S; reflexivity.
Qed.

(** ** Writing cells *)
Fixpoint upd (j : nat) (x : option lval) (row : list (option lval)) : list (option lval) :=
  match row, j with
  | [], _ => []
  | _ :: r, O => x :: r
  | y :: r, S j' => y :: upd j' x r
  end.
Lemma upd_length j x row : length (upd j x row) = length row.
Proof. revert j. induction row as [|y row IH]; intros [|j]; cbn; congruence. Qed.
Lemma upd_same j x row : j < length row -> nth_error (upd j x row) j = Some x.
Proof. revert j. induction row as [|y row IH]; intros [|j] L; cbn in *; try lia; [reflexivity|]. apply IH. lia. Qed.
Lemma upd_other j q x row : j <> q -> nth_error (upd j x row) q = nth_error row q.
Proof. revert j q. induction row as [|y row IH]; intros [|j] [|q] N; cbn; try congruence; try reflexivity. apply IH. lia. Qed.

Lemma set_cell_ok cs j v row k t x : length row = length cs -> nth_error cs j = Some (k, t) -> put t v = Ok x ->
  set_cell cs j v row = Ok (upd j x row).
Proof.
  revert j row. induction cs as [|[k' t'] cs IH]; intros j [|y row] L E P; try discriminate; [destruct j; discriminate|].
  destruct j as [|j]; cbn in *.
  - injection E as -> ->. rewrite P. reflexivity.
  - rewrite (IH j row) by (auto; lia). reflexivity.
Qed.

Lemma upd_cell cs row k q x k' : length row = length cs -> index_of k cs = Some q ->
  cell_of cs (upd q x row) k' = if beqb k' k then Some x else cell_of cs row k'.
Proof.
  intros L I. rewrite !index_cell by (rewrite ?upd_length; exact L).
  destruct (beqb_spec k' k) as [->|N].
  - rewrite I. apply upd_same. rewrite L. apply index_lt with k. exact I.
  - destruct (index_of k' cs) as [q'|] eqn:I'; [|reflexivity]. apply upd_other. intros ->.
    destruct (index_nth _ _ _ I) as [t T], (index_nth _ _ _ I') as [t' T']. congruence.
Qed.

(** ** Copying a row *)
Lemma copy_row_ok c i row : table c -> nth_error (rws c) i = Some row -> Forall (fun o => o <> None) row ->
  forall suf pre old, row = pre ++ suf -> length old = length suf ->
  copy_row c i (length suf) (length pre) (pre ++ old) = Ok row.
Proof.
  intros T E NN. pose proof (table_row c i row T E) as R. pose proof (row_length _ _ R) as L.
  induction suf as [|o suf IH]; intros pre old P LO; cbn [copy_row length].
  - destruct old; [|discriminate]. congruence.
  - destruct old as [|y old]; [discriminate|].
    assert (O : nth_error row (length pre) = Some o) by (rewrite P, nth_error_app2, Nat.sub_diag by lia; reflexivity).
    destruct (nth_error (cols c) (length pre)) as [[k t]|] eqn:C.
    2:{ apply nth_error_None in C. rewrite P in L. rewrite app_length in L. cbn in L. lia. }
    destruct (row_cell _ _ _ _ _ R C) as (o' & O' & CO). assert (o' = o) by congruence. subst o'.
    rewrite (read_cell c i _ row o k t E C O CO). cbn [rbind].
    destruct o as [v|]; [|rewrite P in NN; apply Forall_app in NN; destruct NN as [_ NN]; inversion NN; congruence].
    assert (LL : length (pre ++ y :: old) = length (cols c)).
    { rewrite <- L, P, !app_length. cbn. cbn in LO. lia. }
    rewrite (set_cell_ok (cols c) (length pre) v _ k t (Some v) LL C (put_own t v CO)). cbn [rbind].
    replace (upd (length pre) (Some v) (pre ++ y :: old)) with ((pre ++ [Some v]) ++ old).
    2:{ clear. induction pre; cbn; [reflexivity|]. congruence. }
    replace (S (length pre)) with (length (pre ++ [Some v])) by (rewrite app_length; cbn; lia).
    apply IH; [|cbn in LO; lia]. rewrite <- app_assoc. exact P.
Qed.

Lemma copy_whole c i row : table c -> no_nulls c -> nth_error (rws c) i = Some row ->
  copy_row c i (length (cols c)) 0 (blank (cols c)) = Ok row.
Proof.
  intros T NN E. pose proof (row_length _ _ (table_row c i row T E)) as L. rewrite <- L.
  assert (NR : Forall (fun o => o <> None) row).
  { unfold no_nulls in NN. rewrite Forall_forall in NN. apply NN. apply nth_error_In with i. exact E. }
  assert (LB : length (blank (cols c)) = length row) by (unfold blank; rewrite map_length; symmetry; exact L).
  exact (copy_row_ok c i row T E NR row [] (blank (cols c)) eq_refl LB).
Qed.

(** ** Filtering *)
Lemma nth_skipn {A} (l : list A) i a r : skipn i l = a :: r -> nth_error l i = Some a /\ skipn (S i) l = r.
Proof.
  revert l. induction i as [|i IH]; intros [|x l] H; try discriminate.
  - cbn in *. injection H as -> ->. auto.
  - cbn [skipn] in H. destruct (IH l H) as [A1 A2]. split; [exact A1|exact A2].
Qed.

Lemma match_loop_ok p f limit c : table c -> no_nulls c ->
  (forall i row, nth_error (rws c) i = Some row -> p i = Ok (f row)) ->
  forall rest i out, skipn i (rws c) = rest -> length out <= CAP -> limit_check limit (length out) = true ->
  match_loop p limit c (length rest) i out =
    if length out + length (room limit (length out) (filter f rest)) <=? CAP
    then Ok (out ++ room limit (length out) (filter f rest)) else Err UB.
Proof.
  intros T NN P. induction rest as [|row rest IH]; intros i out SK LO LC; cbn [match_loop length filter].
  - rewrite room_nil, app_nil_r. cbn [length]. rewrite Nat.add_0_r. rewrite (proj2 (Nat.leb_le _ _) LO). reflexivity.
  - destruct (nth_skipn _ _ _ _ SK) as [E SK']. rewrite (P i row E). cbn [rbind]. destruct (f row).
    + rewrite (copy_whole c i row T NN E). cbn [rbind]. unfold emit. rewrite room_cons by exact LC.
      destruct (Nat.ltb_spec (length out) CAP) as [LT|GE]; cbn [rbind].
      2:{ destruct (Nat.leb_spec (length out + length (row :: (if limit_check limit (S (length out)) then room limit (S (length out)) (filter f rest) else []))) CAP) as [X|X]; [cbn [length] in X; lia|reflexivity]. }
      rewrite app_length. cbn [length]. rewrite Nat.add_1_r.
      destruct (limit_check limit (S (length out))) eqn:LC'.
      * rewrite (IH (S i) (out ++ [row])); [|exact SK'|rewrite app_length; cbn [length]; lia|rewrite app_length; cbn [length]; rewrite Nat.add_1_r; exact LC'].
        rewrite app_length. cbn [length]. rewrite Nat.add_1_r, <- app_assoc. cbn [app].
        replace (length out + S (length (room limit (S (length out)) (filter f rest)))) with (S (length out) + length (room limit (S (length out)) (filter f rest))) by lia.
        reflexivity.
      * cbn [length]. rewrite Nat.add_1_r. destruct (Nat.leb_spec (S (length out)) CAP); [reflexivity|lia].
    + apply IH; assumption.
Qed.

Lemma at_most_limited {A} limit (l : list A) : at_most limit l = IndexSpec.limited limit l.
Proof. reflexivity. Qed.

Theorem table_match_ok p f limit c : table c -> no_nulls c ->
  (forall i row, nth_error (rws c) i = Some row -> p c i = Ok (f row)) ->
  length (at_most limit (filter f (rws c))) <= CAP ->
  exists o, table_match p limit c = Ok o /\ match o with None => [] | Some c' => rws c' end = at_most limit (filter f (rws c)) /\
    (forall c', o = Some c' -> cols c' = cols c).
Proof.
  intros T NN P L. unfold table_match. destruct (limit_check limit 0) eqn:LC.
  - rewrite (match_loop_ok (p c) f limit c T NN P (rws c) 0 [] eq_refl (Nat.le_0_l _) LC). cbn [length Nat.add].
    rewrite room_0, <- at_most_limited. rewrite (proj2 (Nat.leb_le _ _) L). cbn [rbind app].
    eexists. split; [reflexivity|]. cbn. split; [reflexivity|]. intros c' H. injection H as <-. reflexivity.
  - eexists. split; [reflexivity|]. split; [|discriminate]. symmetry. apply no_room. exact LC.
Qed.

Theorem table_match_overflow p f limit c : table c -> no_nulls c ->
  (forall i row, nth_error (rws c) i = Some row -> p c i = Ok (f row)) ->
  CAP < length (at_most limit (filter f (rws c))) -> table_match p limit c = Err UB.
Proof.
  intros T NN P L. unfold table_match. destruct (limit_check limit 0) eqn:LC.
  - rewrite (match_loop_ok (p c) f limit c T NN P (rws c) 0 [] eq_refl (Nat.le_0_l _) LC). cbn [length Nat.add].
    rewrite room_0, <- at_most_limited. destruct (Nat.leb_spec (length (at_most limit (filter f (rws c)))) CAP); [lia|reflexivity].
  - rewrite at_most_limited, (no_room limit _ LC) in L. cbn in L. lia.
Qed.

(** ** Conditions *)
Lemma test_related o a b c : rel a b = Some c -> (test o c = true <-> related o a b).
Proof.
  intros R. unfold related. rewrite R. destruct o, c; cbn; split; intros H; try discriminate; try reflexivity;
    try (left; reflexivity); try (right; reflexivity); try (destruct H; discriminate); congruence.
Qed.

Lemma bool_fits z : LValSpec.fits TBool z -> z = 0%Z \/ z = 1%Z.
Proof. unfold LValSpec.fits. cbn. lia. Qed.
Lemma b2z_datum z : LValSpec.fits TBool z -> Z.b2z (negb (Z.eqb z 0)) = z.
Proof. intros F. destruct (bool_fits z F); subst; reflexivity. Qed.

Lemma cell_datum t v : cell_ok t (Some v) -> exists a, datum_of v = Some a.
Proof. destruct v as [|s z|s]; cbn; [tauto| |]; eauto. intros _. destruct s; eauto. Qed.

Lemma cell_of_typed cs row k o : row_ok cs row -> cell_of cs row k = Some o -> exists j t, index_of k cs = Some j /\ nth_error cs j = Some (k, t) /\ nth_error row j = Some o /\ cell_ok t o.
Proof.
  intros R H. rewrite index_cell in H by (apply row_length; exact R). destruct (index_of k cs) as [j|] eqn:I; [|discriminate].
  destruct (index_nth _ _ _ I) as [t T]. destruct (row_cell _ _ _ _ _ R T) as (o' & O & C). exists j, t. repeat split; auto. congruence.
Qed.

Section Conditions.
  Variable unset : N.
  Variable string_bytes : dval -> list byte.

  Lemma compare_parameter_ok o t v x : cell_ok t (Some v) -> fits_column v x = true ->
    exists a b, datum_of v = Some a /\ datum_of_param x = Some b /\ decides (compare_parameter string_bytes o v x) (related o a b).
  Proof.
    intros C F. destruct v as [|s z|s]; cbn [fits_column] in F; [discriminate| |].
    - destruct C as (-> & B & FZ).
      destruct t; try discriminate; destruct x as [|bx|k z'|sx|]; try discriminate.
      all: try (exists (Number z), (Number z'); split; [reflexivity|]; split; [reflexivity|];
        cbn [compare_parameter kept_as as_int_of]; rewrite (read_as_fits _ _ _ F); cbn [rbind];
        exists (test o (three_way z z')); split; [reflexivity|]; apply test_related; cbn; rewrite three_way_compare; reflexivity).
      exists (Truth (negb (Z.eqb z 0))), (Truth bx). split; [reflexivity|]. split; [reflexivity|].
      cbn [compare_parameter kept_as as_bool_of rbind]. exists (test o (three_way z (Z.b2z bx))). split; [reflexivity|].
      apply test_related. cbn. rewrite (b2z_datum z FZ), three_way_compare. reflexivity.
    - destruct x as [|bx|k z'|sx|]; try discriminate. exists (Text s), (Text sx). split; [reflexivity|]. split; [reflexivity|].
      cbn. exists (test o (bcmp s sx)). split; [reflexivity|]. apply test_related. reflexivity.
  Qed.

  Lemma get_as_own t z : LValSpec.basic t = true -> get_as t (VNum t z) = Ok z.
  Proof. intros B. destruct t; try discriminate; reflexivity. Qed.

  Lemma compare_cells_ok o t v w : cell_ok t (Some v) -> cell_ok (type_of w) (Some w) -> same_type v w = true ->
    exists a b, datum_of v = Some a /\ datum_of w = Some b /\ decides (compare_cells o v w) (related o a b).
  Proof.
    intros C D S. destruct v as [|s z|s], w as [|s' z'|s']; cbn [same_type] in S; try discriminate.
    - apply andb_true_iff in S. destruct S as [S B]. unfold lty_eqb in S. destruct (lty_eq_dec s s') as [<-|]; [|discriminate].
      cbn in C, D. destruct C as (-> & _ & FZ), D as (_ & _ & FZ').
      assert (E : compare_cells o (VNum t z) (VNum t z') = Ok (test o (three_way z z'))).
      { unfold compare_cells. destruct t; try discriminate; cbn [kept_as]; rewrite get_as_own by reflexivity; reflexivity. }
      rewrite E. destruct t; try discriminate;
        try (exists (Number z), (Number z'); split; [reflexivity|]; split; [reflexivity|]; exists (test o (three_way z z'));
             split; [reflexivity|]; apply test_related; cbn; rewrite three_way_compare; reflexivity).
      exists (Truth (negb (Z.eqb z 0))), (Truth (negb (Z.eqb z' 0))). split; [reflexivity|]. split; [reflexivity|].
      exists (test o (three_way z z')). split; [reflexivity|]. apply test_related. cbn.
      rewrite (b2z_datum z FZ), (b2z_datum z' FZ'), three_way_compare. reflexivity.
    - exists (Text s), (Text s'). split; [reflexivity|]. split; [reflexivity|].
      exists (test o (bcmp s s')). split; [reflexivity|]. apply test_related. reflexivity.
  Qed.

  Lemma content_some cs row k v a : cell_of cs row k = Some (Some v) -> datum_of v = Some a -> content cs row k = Some a.
  Proof. intros H D. unfold content. rewrite H. exact D. Qed.

  Theorem cond1_ok e ps c i row right : table c -> nth_error (rws c) i = Some row -> regular1 e ps (cols c) row = true ->
    decides (cond1 unset string_bytes e ps c i) (holds_of e (given ps) (content (cols c) row) right).
  Proof.
    intros T E. pose proof (table_row c i row T E) as R.
    induction e as [ | |o k p|o k k'|es IH|es IH|es IH] using expr_ind'; intros G.
    - discriminate.
    - exists false. cbn. split; [reflexivity|]. split; [discriminate|tauto].
    - cbn [cond1 holds_of regular1] in G |- *. destruct (cell_of (cols c) row k) as [[v|]|] eqn:C; try discriminate.
      destruct (lookup N.eqb p ps) as [x|] eqn:L; [|discriminate].
      destruct (cell_of_typed _ _ _ _ R C) as (j & t & I & NC & NR & CO).
      unfold check1, column_of, parameter. rewrite I, L. cbn [rbind]. rewrite (read_cell c i j row (Some v) k t E NC NR CO). cbn [rbind].
      destruct (compare_parameter_ok o t v x CO G) as (a & b & A & B & (r & ER & RR)). exists r. split; [exact ER|].
      rewrite RR. pose proof (content_some _ _ _ _ _ C A) as CA. assert (PB : given ps p = Some b) by (unfold given; rewrite L; exact B).
      split; [intros H; exists a, b; auto|]. intros (a' & b' & A' & B' & H). congruence.
    - discriminate.
    - cbn in G. induction es as [|e es IHes]; cbn.
      + exists true. tauto.
      + cbn in G. apply andb_true_iff in G. destruct G as [G1 G2]. inversion IH as [|? ? H1 H2]; subst.
        destruct (H1 G1) as (b & Eb & B). destruct (IHes H2 G2) as (b' & Eb' & B'). rewrite Eb. cbn in Eb' |- *.
        destruct b.
        * exists b'. split; [exact Eb'|]. cbn in B'. tauto.
        * exists false. split; [reflexivity|]. split; [discriminate|]. tauto.
    - cbn in G. induction es as [|e es IHes]; cbn.
      + exists false. split; [reflexivity|]. split; [discriminate|tauto].
      + cbn in G. apply andb_true_iff in G. destruct G as [G1 G2]. inversion IH as [|? ? H1 H2]; subst.
        destruct (H1 G1) as (b & Eb & B). destruct (IHes H2 G2) as (b' & Eb' & B'). rewrite Eb. cbn in Eb' |- *.
        destruct b.
        * exists true. tauto.
        * exists b'. split; [exact Eb'|]. cbn in B'.
          assert (~ holds_of e (given ps) (content (cols c) row) right) by (rewrite <- B; discriminate). tauto.
    - destruct es as [|e es]; cbn in G |- *; [discriminate|]. inversion IH as [|? ? H1 H2]; subst.
      destruct (H1 G) as (b & Eb & B). rewrite Eb. cbn. exists (negb b). split; [reflexivity|].
      rewrite negb_true_iff, <- B. destruct b; split; congruence.
  Qed.

  Lemma param_cell x : small x = true -> (forall k z, x = DInt k z -> LValSpec.fits (lty_of k) z) ->
    cell_ok (type_of (as_logical_value x)) (Some (as_logical_value x)) /\ datum_of (as_logical_value x) = datum_of_param x.
  Proof.
    destruct x as [|b|k z|s|]; cbn [small]; intros S F; try discriminate.
    - split; [|destruct b; reflexivity]. split; [reflexivity|]. split; [reflexivity|].
      unfold LValSpec.fits; destruct b; cbn; lia.
    - specialize (F k z eq_refl). destruct k; try discriminate; cbn in *; auto.
    - cbn. auto.
  Qed.

  Lemma fits_lty k z : k <> TapeModel.I128 -> TapeModel.fits k z = true -> LValSpec.fits (lty_of k) z.
  Proof.
    intros N F. unfold TapeModel.fits, TapeModel.imin, TapeModel.imax in F. unfold LValSpec.fits. destruct k; cbn in F |- *; try congruence;
      apply andb_true_iff in F; destruct F as [F1 F2]; apply Z.leb_le in F1; apply Z.leb_le in F2; lia.
  Qed.

  Theorem cond2_ok e ps l r i j a b : table l -> table r -> nth_error (rws l) i = Some a -> nth_error (rws r) j = Some b ->
    params_ok ps -> regular2 e ps (cols l) a (cols r) b = true ->
    decides (cond2 e ps l r i j) (holds_of e (given ps) (content (cols l) a) (content (cols r) b)).
  Proof.
    intros Tl Tr El Er PO. pose proof (table_row l i a Tl El) as Rl. pose proof (table_row r j b Tr Er) as Rr.
    induction e as [ | |o k p|o k k'|es IH|es IH|es IH] using expr_ind'; intros G.
    - discriminate.
    - exists false. cbn. split; [reflexivity|]. split; [discriminate|tauto].
    - cbn [cond2 holds_of regular2] in G |- *. destruct (cell_of (cols l) a k) as [[v|]|] eqn:C; try discriminate.
      destruct (lookup N.eqb p ps) as [x|] eqn:L; [|discriminate]. apply andb_true_iff in G. destruct G as [S G].
      destruct (cell_of_typed _ _ _ _ Rl C) as (q & t & I & NC & NR & CO).
      unfold check2, column_of, parameter. rewrite I, L. cbn [rbind]. rewrite (read_cell l i q a (Some v) k t El NC NR CO). cbn [rbind].
      destruct (param_cell x S) as [PC PD].
      { intros k0 z ->. apply fits_lty; [|apply (PO p); exact L]. intros ->. discriminate. }
      destruct (compare_cells_ok o t v _ CO PC G) as (da & db & A & B & (rr & ER & RR)). exists rr. split; [exact ER|].
      rewrite RR. pose proof (content_some _ _ _ _ _ C A) as CA.
      assert (PB : given ps p = Some db) by (unfold given; rewrite L; congruence).
      split; [intros H; exists da, db; auto|]. intros (a' & b' & A' & B' & H). congruence.
    - cbn [cond2 holds_of regular2] in G |- *. destruct (cell_of (cols l) a k) as [[v|]|] eqn:C; try discriminate.
      destruct (cell_of (cols r) b k') as [[w|]|] eqn:D; try discriminate.
      destruct (cell_of_typed _ _ _ _ Rl C) as (q & t & I & NC & NR & CO).
      destruct (cell_of_typed _ _ _ _ Rr D) as (q' & t' & I' & NC' & NR' & CO').
      unfold check2, column_of. rewrite I, I'. cbn [rbind]. rewrite (read_cell l i q a (Some v) k t El NC NR CO). cbn [rbind].
      rewrite (read_cell r j q' b (Some w) k' t' Er NC' NR' CO'). cbn [rbind].
      assert (W : cell_ok (type_of w) (Some w)) by (destruct (cell_storable _ _ CO') as (_ & -> & _); exact CO').
      destruct (compare_cells_ok o t v w CO W G) as (da & db & A & B & (rr & ER & RR)). exists rr. split; [exact ER|].
      rewrite RR. pose proof (content_some _ _ _ _ _ C A) as CA. pose proof (content_some _ _ _ _ _ D B) as CB.
      split; [intros H; exists da, db; auto|]. intros (a' & b' & A' & B' & H). congruence.
    - cbn in G. induction es as [|e es IHes]; cbn.
      + exists true. tauto.
      + cbn in G. apply andb_true_iff in G. destruct G as [G1 G2]. inversion IH as [|? ? H1 H2]; subst.
        destruct (H1 G1) as (c & Eb & B). destruct (IHes H2 G2) as (c' & Eb' & B'). rewrite Eb. cbn in Eb' |- *.
        destruct c.
        * exists c'. split; [exact Eb'|]. cbn in B'. tauto.
        * exists false. split; [reflexivity|]. split; [discriminate|]. tauto.
    - cbn in G. induction es as [|e es IHes]; cbn.
      + exists false. split; [reflexivity|]. split; [discriminate|tauto].
      + cbn in G. apply andb_true_iff in G. destruct G as [G1 G2]. inversion IH as [|? ? H1 H2]; subst.
        destruct (H1 G1) as (c & Eb & B). destruct (IHes H2 G2) as (c' & Eb' & B'). rewrite Eb. cbn in Eb' |- *.
        destruct c.
        * exists true. tauto.
        * exists c'. split; [exact Eb'|]. cbn in B'.
          assert (~ holds_of e (given ps) (content (cols l) a) (content (cols r) b)) by (rewrite <- B; discriminate). tauto.
    - destruct es as [|e es]; cbn in G |- *; [discriminate|]. inversion IH as [|? ? H1 H2]; subst.
      destruct (H1 G) as (c & Eb & B). rewrite Eb. cbn. exists (negb c). split; [reflexivity|].
      rewrite negb_true_iff, <- B. destruct c; split; congruence.
  Qed.
End Conditions.

(** ** Joins *)
Lemma lookup_app {B} k (a b : list (list byte * B)) : lookup beqb k (a ++ b) = match lookup beqb k a with Some v => Some v | None => lookup beqb k b end.
Proof. induction a as [|[k' v] a IH]; cbn; [reflexivity|]. destruct (beqb k k'); [reflexivity|exact IH]. Qed.

Lemma lookup_index k cs : lookup beqb k cs = match index_of k cs with Some j => option_map snd (nth_error cs j) | None => None end.
Proof. induction cs as [|[k' t] cs IH]; cbn; [reflexivity|]. destruct (beqb k k'); [reflexivity|]. rewrite IH. destruct (index_of k cs); reflexivity. Qed.

Lemma res_cols_fold rs : forall ls k,
  lookup beqb k (fold_left (fun cs col => match index_of (fst col) cs with None => cs ++ [col] | Some _ => cs end) rs ls) =
  match lookup beqb k ls with Some t => Some t | None => lookup beqb k rs end.
Proof.
  induction rs as [|[k' t'] rs IH]; intros ls k; cbn [fold_left].
  - destruct (lookup beqb k ls); reflexivity.
  - rewrite IH. cbn [fst]. destruct (index_of k' ls) as [q|] eqn:I.
    + cbn [lookup]. destruct (lookup beqb k ls) eqn:L; [reflexivity|]. destruct (beqb_spec k k') as [->|N]; [|reflexivity].
      rewrite lookup_index, I in L. destruct (index_nth _ _ _ I) as [t T]. rewrite T in L. discriminate.
    + rewrite lookup_app. cbn [lookup]. destruct (lookup beqb k ls); [reflexivity|]. destruct (beqb k k'); reflexivity.
Qed.
Lemma res_cols_lookup l r k : lookup beqb k (res_cols l r) = match lookup beqb k (cols l) with Some t => Some t | None => lookup beqb k (cols r) end.
Proof. apply res_cols_fold. Qed.

Lemma lookup_in {B} k (t : B) cs : NoDup (map fst cs) -> In (k, t) cs -> lookup beqb k cs = Some t.
Proof.
  induction cs as [|[k' t'] cs IH]; cbn; [intros _ []|]. intros N [H|H].
  - injection H as -> ->. rewrite beqb_refl. reflexivity.
  - inversion N as [|? ? NI N']; subst. destruct (beqb_spec k k') as [->|]; [|auto]. exfalso. apply NI.
    apply in_map_iff. exists (k', t). auto.
Qed.
Lemma lookup_some {B} k (t : B) cs : lookup beqb k cs = Some t -> In (k, t) cs.
Proof.
  induction cs as [|[k' t'] cs IH]; cbn; [discriminate|]. destruct (beqb_spec k k') as [->|]; intros H; [left; congruence|right; auto].
Qed.
Lemma lookup_none {B} k (cs : list (list byte * B)) : lookup beqb k cs = None <-> ~ In k (map fst cs).
Proof.
  induction cs as [|[k' t'] cs IH]; cbn; [tauto|]. destruct (beqb_spec k k') as [->|N].
  - split; [discriminate|]. intros H. exfalso. apply H. left. reflexivity.
  - rewrite IH. split; [intros H [E|E]; [congruence|auto]|tauto].
Qed.

(** The columns of a side are in the result with their types. *)
Definition covers (rc : list (list byte * lty)) (cs : list (list byte * lty)) : Prop :=
  forall k t, In (k, t) cs -> exists q, index_of k rc = Some q /\ nth_error rc q = Some (k, t).
Lemma lookup_covers rc k t : lookup beqb k rc = Some t -> exists q, index_of k rc = Some q /\ nth_error rc q = Some (k, t).
Proof.
  rewrite lookup_index. destruct (index_of k rc) as [q|] eqn:I; [|discriminate]. destruct (index_nth _ _ _ I) as [t' T]. rewrite T. cbn.
  intros H. injection H as ->. eauto.
Qed.
Lemma covers_left l r : table l -> covers (res_cols l r) (cols l).
Proof. intros [N _] k t I. apply lookup_covers. rewrite res_cols_lookup, (lookup_in k t _ N I). reflexivity. Qed.
Lemma covers_right l r : table l -> table r -> agree l r -> covers (res_cols l r) (cols r).
Proof.
  intros [Nl _] [Nr _] A k t I. apply lookup_covers. rewrite res_cols_lookup, (lookup_in k t _ Nr I).
  destruct (lookup beqb k (cols l)) as [t'|] eqn:L; [|reflexivity]. rewrite (A k t' t (lookup_some _ _ _ L) I). reflexivity.
Qed.

(** The values of one side in a row of the result. *)
Lemma put_side_ok rc c i a : NoDup (map fst (cols c)) -> row_ok (cols c) a -> Forall (fun o => o <> None) a ->
  nth_error (rws c) i = Some a -> covers rc (cols c) ->
  forall cs pre arow row, cols c = pre ++ cs -> skipn (length pre) a = arow -> length row = length rc ->
  exists row', put_side rc c (Some i) cs (length pre) row = Ok row' /\ length row' = length rc /\
    forall k, cell_of rc row' k = match cell_of cs arow k with Some x => Some x | None => cell_of rc row k end.
Proof.
  intros ND R NN E CV. induction cs as [|[k t] cs IH]; intros pre arow row P SK LR; cbn [put_side].
  - exists row. split; [reflexivity|]. split; [exact LR|]. intros k. reflexivity.
  - assert (C : nth_error (cols c) (length pre) = Some (k, t)) by (rewrite P, nth_error_app2, Nat.sub_diag by lia; reflexivity).
    destruct (row_cell _ _ _ _ _ R C) as (o & O & CO).
    rewrite (read_cell c i _ a o k t E C O CO). cbn [rbind].
    assert (exists v, o = Some v) as [v ->].
    { destruct o as [v|]; [eauto|]. rewrite Forall_forall in NN. exfalso. apply (NN None); [|reflexivity]. apply nth_error_In with (length pre). exact O. }
    destruct (CV k t) as (q & I & Q); [rewrite P; apply in_or_app; right; left; reflexivity|].
    rewrite I, (set_cell_ok rc q v row k t (Some v) LR Q (put_own t v CO)). cbn [rbind].
    assert (exists arow', arow = Some v :: arow' /\ skipn (length (pre ++ [(k, t)])) a = arow') as (arow' & EA & SK').
    { destruct arow as [|x arow'].
      - exfalso. assert (length pre < length a) by (apply nth_error_Some; congruence).
        pose proof (skipn_length (length pre) a) as SL. rewrite SK in SL. cbn in SL. lia.
      - destruct (nth_skipn _ _ _ _ SK) as [X Y]. exists arow'. rewrite app_length. cbn [length]. rewrite Nat.add_1_r.
        split; [congruence|exact Y]. }
    destruct (IH (pre ++ [(k, t)]) arow' (upd q (Some v) row)) as (row' & W & L' & F).
    { rewrite <- app_assoc. exact P. }
    { exact SK'. }
    { rewrite upd_length. exact LR. }
    rewrite app_length in W. cbn [length] in W. rewrite Nat.add_1_r in W. exists row'. split; [exact W|]. split; [exact L'|].
    intros k'. rewrite F, EA, (upd_cell rc row k q (Some v) k' LR I).
    replace (cell_of ((k, t) :: cs) (Some v :: arow') k') with (if beqb k' k then Some (Some v) else cell_of cs arow' k') by reflexivity.
    destruct (beqb_spec k' k) as [->|N]; [|reflexivity].
    assert (NI : ~ In k (map fst cs)).
    { rewrite P, map_app in ND. apply NoDup_remove_2 in ND. intros H. apply ND. apply in_or_app. right. exact H. }
    assert (cell_of cs arow' k = None) as ->; [|reflexivity].
    unfold cell_of. apply lookup_none. intros H. apply NI. clear - H.
    revert arow' H. induction cs as [|c cs IH]; intros [|x ar] H; cbn in *; try tauto. destruct H as [H|H]; [left; exact H|right; eauto].
Qed.

Lemma cell_blank cs k : cell_of cs (blank cs) k = if existsb (fun c => beqb k (fst c)) cs then Some None else None.
Proof.
  unfold cell_of, blank. induction cs as [|[k' t] cs IH]; cbn; [reflexivity|]. destruct (beqb k k'); [reflexivity|exact IH].
Qed.
Lemma existsb_names k cs : existsb (fun c : list byte * lty => beqb k (fst c)) cs = match lookup beqb k cs with Some _ => true | None => false end.
Proof. induction cs as [|[k' t] cs IH]; cbn; [reflexivity|]. destruct (beqb k k'); [reflexivity|exact IH]. Qed.

Lemma join_row_ok l r i j a b : table l -> table r -> no_nulls l -> no_nulls r -> agree l r ->
  nth_error (rws l) i = Some a -> nth_error (rws r) j = Some b ->
  exists row, join_row l r (Some i) (Some j) = Ok row /\ length row = length (res_cols l r) /\
    made_of l r (Some a) (Some b) (res_cols l r) row.
Proof.
  intros Tl Tr Nl Nr AG El Er. unfold join_row. set (rc := res_cols l r).
  assert (NA : Forall (fun o => o <> None) a) by (unfold no_nulls in Nl; rewrite Forall_forall in Nl; apply Nl, nth_error_In with i, El).
  assert (NB : Forall (fun o => o <> None) b) by (unfold no_nulls in Nr; rewrite Forall_forall in Nr; apply Nr, nth_error_In with j, Er).
  destruct (put_side_ok rc l i a (proj1 Tl) (table_row _ _ _ Tl El) NA El (covers_left l r Tl) (cols l) [] a (blank rc) eq_refl eq_refl) as (row1 & W1 & L1 & F1).
  { unfold blank. apply map_length. }
  cbn [length] in W1. rewrite W1. cbn [rbind].
  destruct (put_side_ok rc r j b (proj1 Tr) (table_row _ _ _ Tr Er) NB Er (covers_right l r Tl Tr AG) (cols r) [] b row1 eq_refl eq_refl L1) as (row2 & W2 & L2 & F2).
  cbn [length] in W2. exists row2. split; [exact W2|]. split; [exact L2|]. intros k. rewrite F2, F1.
  destruct (cell_of (cols r) b k); [reflexivity|]. destruct (cell_of (cols l) a k); [reflexivity|].
  rewrite cell_blank, existsb_app, !existsb_names. unfold rc. rewrite res_cols_lookup.
  destruct (lookup beqb k (cols l)); [reflexivity|]. destruct (lookup beqb k (cols r)); reflexivity.
Qed.

Section Inner.
  Variables (p : nat -> nat -> res bool) (f : list (option lval) -> list (option lval) -> bool) (l r : chunk).
  Hypothesis Tl : table l.
  Hypothesis Tr : table r.
  Hypothesis Nl : no_nulls l.
  Hypothesis Nr : no_nulls r.
  Hypothesis AG : agree l r.
  Hypothesis P : forall i j a b, nth_error (rws l) i = Some a -> nth_error (rws r) j = Some b -> p i j = Ok (f a b).

  Definition good (row : list (option lval)) (ab : option (list (option lval)) * option (list (option lval))) : Prop :=
    length row = length (res_cols l r) /\ made_of l r (fst ab) (snd ab) (res_cols l r) row.
  Definition rowpairs (a : list (option lval)) (rest : list (list (option lval))) : list (option (list (option lval)) * option (list (option lval))) :=
    map (fun b => (Some a, Some b)) (filter (f a) rest).

  (** The result of a loop: the rows added, or the write outside of the result. *)
  Definition adds (m : res (list (list (option lval)))) (out : list (list (option lval))) (ps : list (option (list (option lval)) * option (list (option lval)))) : Prop :=
    if length out + length ps <=? CAP then exists new, m = Ok (out ++ new) /\ Forall2 good new ps else m = Err UB.

  Lemma forall2_len {A B} (R : A -> B -> Prop) x y : Forall2 R x y -> length x = length y.
  Proof. induction 1; cbn; congruence. Qed.

  Lemma adds_app m g out xs ys : adds m out xs -> length out <= CAP ->
    (forall new, length (out ++ new) <= CAP -> length new = length xs -> adds (g (out ++ new)) (out ++ new) ys) ->
    adds (do o <- m; g o) out (xs ++ ys).
  Proof.
    unfold adds. intros H LO G. rewrite app_length.
    destruct (Nat.leb_spec (length out + length xs) CAP) as [L|L].
    - destruct H as (new & -> & F). cbn [rbind]. pose proof (forall2_len _ _ _ F) as FL.
      specialize (G new). rewrite app_length in G. specialize (G ltac:(lia) FL).
      replace (length out + (length xs + length ys)) with (length out + length new + length ys) by lia.
      destruct (Nat.leb_spec (length out + length new + length ys) CAP) as [L'|L'].
      + destruct G as (new' & G & F'). exists (new ++ new'). rewrite app_assoc. split; [exact G|]. apply Forall2_app; assumption.
      + exact G.
    - subst m. cbn [rbind]. destruct (Nat.leb_spec (length out + (length xs + length ys)) CAP); [lia|reflexivity].
  Qed.

  Lemma adds_none out : length out <= CAP -> adds (Ok out) out [].
  Proof. intros L. unfold adds. cbn [length]. rewrite Nat.add_0_r, (proj2 (Nat.leb_le _ _) L). exists []. rewrite app_nil_r. split; [reflexivity|constructor]. Qed.

  Lemma adds_pair i j a b out : nth_error (rws l) i = Some a -> nth_error (rws r) j = Some b -> length out <= CAP ->
    adds (add_pair l r (Some i) (Some j) out) out [(Some a, Some b)].
  Proof.
    intros A B LO. destruct (join_row_ok l r i j a b Tl Tr Nl Nr AG A B) as (row & W & L & M).
    unfold adds, add_pair, emit. rewrite W. cbn [rbind length].
    destruct (Nat.ltb_spec (length out) CAP) as [X|X], (Nat.leb_spec (length out + 1) CAP) as [Y|Y]; try lia; [|reflexivity].
    exists [row]. split; [reflexivity|]. constructor; [split; assumption|constructor].
  Qed.

  Lemma inner_right_ok i a : nth_error (rws l) i = Some a -> forall rest j out, skipn j (rws r) = rest -> length out <= CAP ->
    adds (inner_right p l r i (length rest) j out) out (rowpairs a rest).
  Proof.
    intros A. induction rest as [|b rest IH]; intros j out SK LO; cbn [inner_right length].
    - apply adds_none. exact LO.
    - destruct (nth_skipn _ _ _ _ SK) as [B SK']. rewrite (P i j a b A B). cbn [rbind]. unfold rowpairs. cbn [filter].
      destruct (f a b).
      + cbn [map]. change ((Some a, Some b) :: map (fun b0 => (Some a, Some b0)) (filter (f a) rest)) with ([(Some a, Some b)] ++ rowpairs a rest).
        apply adds_app; [apply adds_pair; assumption|exact LO|]. intros new LN _. apply IH; assumption.
      + cbn [rbind]. apply IH; assumption.
  Qed.

  Lemma inner_left_ok : forall rest i out, skipn i (rws l) = rest -> length out <= CAP ->
    adds (inner_left p l r (length rest) i out) out (flat_map (fun a => rowpairs a (rws r)) rest).
  Proof.
    induction rest as [|a rest IH]; intros i out SK LO; cbn [inner_left length flat_map].
    - apply adds_none. exact LO.
    - destruct (nth_skipn _ _ _ _ SK) as [A SK']. apply adds_app; [|exact LO|].
      + apply inner_right_ok; auto.
      + intros new LN _. apply IH; assumption.
  Qed.

  Lemma tpairs_flat ls : tpairs f ls (rws r) = flat_map (fun a => rowpairs a (rws r)) ls.
  Proof.
    unfold tpairs. induction ls as [|a ls IH]; cbn [list_prod flat_map]; [reflexivity|].
    rewrite filter_app, map_app, IH. f_equal. unfold rowpairs. clear. induction (rws r) as [|b rs IH]; cbn; [reflexivity|].
    destruct (f a b); cbn; rewrite IH; reflexivity.
  Qed.

  Theorem inner_join_ok : length (tpairs f (rws l) (rws r)) <= CAP ->
    exists out, table_join TInner p l r = Ok out /\ cols out = res_cols l r /\
      Forall2 (fun row ab => length row = length (cols out) /\ made_of l r (fst ab) (snd ab) (cols out) row) (rws out) (tpairs f (rws l) (rws r)).
  Proof.
    intros L. pose proof (inner_left_ok (rws l) 0 [] eq_refl (Nat.le_0_l _)) as H. rewrite <- tpairs_flat in H. unfold adds in H. cbn [length Nat.add] in H.
    rewrite (proj2 (Nat.leb_le _ _) L) in H. destruct H as (new & E & F). cbn [app] in E.
    exists {| cols := res_cols l r; rws := new |}. unfold table_join, join_rows. rewrite E. cbn [rbind]. rewrite firstn_all.
    split; [reflexivity|]. split; [reflexivity|]. exact F.
  Qed.

  Theorem inner_join_overflow : CAP < length (tpairs f (rws l) (rws r)) -> table_join TInner p l r = Err UB.
  Proof.
    intros L. pose proof (inner_left_ok (rws l) 0 [] eq_refl (Nat.le_0_l _)) as H. rewrite <- tpairs_flat in H. unfold adds in H. cbn [length Nat.add] in H.
    destruct (Nat.leb_spec (length (tpairs f (rws l) (rws r))) CAP); [lia|]. unfold table_join, join_rows. rewrite H. reflexivity.
  Qed.
End Inner.

(** The columns of a join. *)
Theorem res_cols_names l r : NoDup (map fst (cols l)) -> NoDup (map fst (cols r)) ->
  res_cols l r = cols l ++ filter (fun c => negb (existsb (fun c' => beqb (fst c) (fst c')) (cols l))) (cols r).
Proof.
  intros Nl Nr. unfold res_cols.
  assert (G : forall rs pre, (forall c, In c rs -> ~ In (fst c) (map fst pre)) -> NoDup (map fst rs) ->
    fold_left (fun cs col => match index_of (fst col) cs with None => cs ++ [col] | Some _ => cs end) rs (cols l ++ pre) =
    (cols l ++ pre) ++ filter (fun c => negb (existsb (fun c' => beqb (fst c) (fst c')) (cols l))) rs).
  { induction rs as [|[k t] rs IH]; intros pre D N; cbn [fold_left filter fst].
    - rewrite app_nil_r. reflexivity.
    - inversion N as [|? ? NI N']; subst.
      assert (D' : forall c, In c rs -> ~ In (fst c) (map fst pre)) by (intros c H; apply D; right; exact H).
      assert (X : index_of k (cols l ++ pre) = None <-> existsb (fun c' => beqb k (fst c')) (cols l) = false).
      { rewrite existsb_names. assert (Y : lookup beqb k pre = None) by (apply lookup_none; apply (D (k, t)); left; reflexivity).
        pose proof (lookup_index k (cols l ++ pre)) as LI. rewrite lookup_app, Y in LI.
        destruct (index_of k (cols l ++ pre)) as [q|] eqn:I.
        - destruct (index_nth _ _ _ I) as [t' T]. rewrite T in LI. cbn in LI. destruct (lookup beqb k (cols l)); [|discriminate]. split; discriminate.
        - destruct (lookup beqb k (cols l)); [discriminate|]. split; reflexivity. }
      destruct (index_of k (cols l ++ pre)) as [q|].
      + destruct (existsb (fun c' => beqb k (fst c')) (cols l)); [|exfalso; destruct X as [_ X]; specialize (X eq_refl); discriminate].
        cbn [negb]. apply IH; assumption.
      + rewrite (proj1 X eq_refl). cbn [negb]. rewrite <- app_assoc. rewrite IH.
        * rewrite <- !app_assoc. reflexivity.
        * intros c H. rewrite map_app, in_app_iff. intros [A|[A|[]]]; [apply (D' c H A)|].
          apply NI. cbn in A. rewrite A. apply in_map. exact H.
        * exact N'. }
  specialize (G (cols r) []). rewrite !app_nil_r in G. apply G; [intros c _ []|exact Nr].
Qed.

Theorem outer_join_empty t p l r out : t <> TInner -> table_join t p l r = Ok out -> rws out = [].
Proof.
  intros N H. unfold table_join, join_rows in H. destruct t; [congruence| | | |].
  - destruct (outer_left p l r (length (rws l)) 0 [] []) as [[o s]|]; cbn [rbind] in H; [|discriminate].
    destruct (full_rest l r (length (rws r)) 0 s o); cbn [rbind] in H; [|discriminate]. injection H as <-. reflexivity.
  - destruct (outer_left p l r (length (rws l)) 0 [] []) as [[o s]|]; cbn [rbind] in H; [|discriminate]. injection H as <-. reflexivity.
  - destruct (right_outer p l r (length (rws r)) 0 []); cbn [rbind] in H; [|discriminate]. injection H as <-. reflexivity.
  - destruct (cross_left l r (length (rws l)) 0 []); cbn [rbind] in H; [|discriminate]. injection H as <-. reflexivity.
Qed.
