(** Proofs about sorting and grouping of tables. *)
From Verif Require Import Bytes Outcome ByteOrd IndexModel QueryModel LValModel TblModel TblSpec TblProofs TAggModel TAggSpec.
From Verif Require LValSpec LValProofs.
From Coq Require Import ZArith Permutation Sorted Lia.
Local Open Scope nat_scope.

Lemma each_map {A B} (f : A -> res B) (g : A -> B) l : (forall a, In a l -> f a = Ok (g a)) -> each f l = Ok (map g l).
Proof.
  induction l as [|a l IH]; intros H; cbn [each map]; [reflexivity|]. rewrite (H a (or_introl eq_refl)). cbn [rbind].
  rewrite IH; [reflexivity|]. intros x I. apply H. right. exact I.
Qed.

(** ** Rows *)
Definition strip (o : option lval) : lval := match o with Some v => v | None => VNull end.
Definition ar (cs : list (list byte * lty)) (row : trow) : list (list byte * lval) := combine (map fst cs) (map strip row).
Definition good (cs : list (list byte * lty)) (row : trow) : Prop := row_ok cs row /\ Forall (fun o => o <> None) row.

Lemma good_rows c : table c -> no_nulls c -> Forall (good (cols c)) (rws c).
Proof. intros [_ T] N. unfold no_nulls in N. rewrite Forall_forall in *. intros r I. split; [apply T|apply N]; exact I. Qed.

Lemma values_ok cs row : good cs row -> values_of cs row = Ok (ar cs row).
Proof.
  intros [R N]. unfold values_of, ar. revert N. induction R as [|col o cs row C R IH]; intros N; [reflexivity|].
  inversion_clear N. cbn [combine each map fst snd]. destruct o as [v|]; [|congruence]. cbn [value_of].
  destruct (cell_storable _ _ C) as [-> _]. cbn [rbind]. rewrite (IH H0). reflexivity.
Qed.
Lemma fill_ok cs row : good cs row -> fill cs (ar cs row) = Ok row.
Proof.
  intros [R N]. unfold ar. revert N. induction R as [|col o cs row C R IH]; intros N; [reflexivity|].
  inversion_clear N. cbn [combine map fill fst snd]. destruct o as [v|]; [|congruence]. cbn [strip]. rewrite (put_own _ _ C). cbn [rbind].
  rewrite (IH H0). reflexivity.
Qed.
Lemma matrix_ok c : table c -> no_nulls c -> matrix c = Ok (map (ar (cols c)) (rws c)).
Proof. intros T N. apply each_map. intros r I. apply values_ok. pose proof (good_rows c T N) as G. rewrite Forall_forall in G. auto. Qed.
Lemma chunk_rows cs rs : Forall (good cs) rs -> chunk_of cs (map (ar cs) rs) = Ok {| cols := cs; rws := rs |}.
Proof.
  intros G. unfold chunk_of. assert (E : each (fill cs) (map (ar cs) rs) = Ok rs); [|rewrite E; reflexivity].
  induction G as [|r rs H G IH]; [reflexivity|]. cbn [map each]. rewrite (fill_ok _ _ H). cbn [rbind]. rewrite IH. reflexivity.
Qed.

Lemma lookup_combine {A B} (g : A -> B) k ks : forall l, lookup beqb k (combine ks (map g l)) = option_map g (lookup beqb k (combine ks l)).
Proof. induction ks as [|k' ks IH]; intros [|a l]; try reflexivity. cbn. destruct (beqb k k'); [reflexivity|apply IH]. Qed.
Lemma ar_lookup cs row k : lookup beqb k (ar cs row) = option_map strip (cell_of cs row k).
Proof. apply lookup_combine. Qed.
(** A column has a value of its type in every row. *)
Lemma good_cell cs row k t : good cs row -> lookup beqb k cs = Some t ->
  exists v j, cell_of cs row k = Some (Some v) /\ cell_ok t (Some v) /\ index_of k cs = Some j /\ nth_error cs j = Some (k, t) /\ nth_error row j = Some (Some v).
Proof.
  intros [R N] L. destruct (lookup_covers cs k t L) as (j & I & C). destruct (row_cell _ _ _ _ _ R C) as (o & O & K).
  destruct o as [v|]. 2:{ rewrite Forall_forall in N. exfalso. apply (N None); [apply nth_error_In with j; exact O|reflexivity]. }
  exists v, j. repeat split; try assumption. pose proof (index_cell k cs row (row_length _ _ R)) as X.
  rewrite I in X. rewrite X. exact O.
Qed.
Lemma good_get cs row k t : good cs row -> lookup beqb k cs = Some t ->
  exists v, cell_of cs row k = Some (Some v) /\ cell_ok t (Some v) /\ get k (ar cs row) = v /\ content cs row k = datum_of v.
Proof.
  intros G L. destruct (good_cell _ _ _ _ G L) as (v & j & E & K & _). exists v. repeat split; try assumption.
  - unfold get. rewrite ar_lookup, E. reflexivity.
  - unfold content. rewrite E. reflexivity.
Qed.

(** ** Values of one type *)
Definition lc (v w : lval) : comparison :=
  match v, w with
  | VNum _ a, VNum _ b => Z.compare a b
  | VStr a, VStr b => bcmp a b
  | _, _ => Eq
  end.
Lemma lc_sym v w : lc w v = CompOpp (lc v w).
Proof. destruct v, w; cbn; try reflexivity; [apply Z.compare_antisym|apply bcmp_sym]. Qed.
Lemma same_lt t v w : cell_ok t (Some v) -> cell_ok t (Some w) -> vltb v w = match lc v w with Lt => true | _ => false end.
Proof.
  unfold vltb, vlt, compare_with. destruct v as [|s z|s]; cbn [cell_ok]; [tauto| |].
  - intros (-> & B & _). destruct w as [|s' z'|s']; cbn [cell_ok]; [tauto| |intros ->; discriminate].
    intros (-> & _). cbn [type_of]. unfold lty_eqb. destruct (lty_eq_dec t t) as [_|]; [|congruence]. cbn [lt_same lc].
    destruct t; try discriminate; cbn [holds]; unfold Z.ltb; reflexivity.
  - intros ->. destruct w as [|s' z'|s']; cbn [cell_ok]; [tauto|intros (-> & B & _); discriminate|].
    intros _. reflexivity.
Qed.
Lemma same_eq t v w : cell_ok t (Some v) -> cell_ok t (Some w) -> veqb v w = match lc v w with Eq => true | _ => false end.
Proof.
  unfold veqb, veq, compare_with. destruct v as [|s z|s]; cbn [cell_ok]; [tauto| |].
  - intros (-> & B & _). destruct w as [|s' z'|s']; cbn [cell_ok]; [tauto| |intros ->; discriminate].
    intros (-> & _). cbn [type_of]. unfold lty_eqb. destruct (lty_eq_dec t t) as [_|]; [|congruence]. cbn [eq_same lc].
    destruct t; try discriminate; cbn [holds]; (destruct (Z.compare_spec z z') as [->|H|H]; [apply Z.eqb_refl|apply Z.eqb_neq; lia|apply Z.eqb_neq; lia]).
  - intros ->. destruct w as [|s' z'|s']; cbn [cell_ok]; [tauto|intros (-> & B & _); discriminate|].
    intros _. reflexivity.
Qed.
Lemma same_compare t v w : cell_ok t (Some v) -> cell_ok t (Some w) -> vcompare v w = lc v w.
Proof. intros A B. unfold vcompare. rewrite (same_eq _ _ _ A B), (same_lt _ _ _ A B). destruct (lc v w); reflexivity. Qed.
Lemma same_rel t v w : cell_ok t (Some v) -> cell_ok t (Some w) ->
  exists x y, datum_of v = Some x /\ datum_of w = Some y /\ rel x y = Some (lc v w).
Proof.
  destruct v as [|s z|s]; cbn [cell_ok]; [tauto| |].
  - intros (-> & B & F). destruct w as [|s' z'|s']; cbn [cell_ok]; [tauto| |intros ->; discriminate].
    intros (-> & _ & F'). cbn [lc].
    destruct t; try discriminate; cbn [datum_of]; try (eexists; eexists; split; [reflexivity|split; reflexivity]).
    eexists; eexists. split; [reflexivity|]. split; [reflexivity|]. cbn [rel]. rewrite (b2z_datum z F), (b2z_datum z' F'). reflexivity.
  - intros ->. destruct w as [|s' z'|s']; cbn [cell_ok]; [tauto|intros (-> & B & _); discriminate|].
    intros _. eexists; eexists. split; [reflexivity|split; reflexivity].
Qed.
Lemma same_value t v w : cell_ok t (Some v) -> cell_ok t (Some w) -> veqb v w = value_eqb v w.
Proof.
  intros A B. rewrite (same_eq _ _ _ A B). revert A B. destruct v as [|s z|s]; cbn [cell_ok]; [tauto| |].
  - intros (-> & C & F). destruct w as [|s' z'|s']; cbn [cell_ok]; [tauto| |intros ->; discriminate].
    intros (-> & _). cbn [lc value_eqb]. unfold lty_eqb. destruct (lty_eq_dec t t) as [_|]; [|congruence]. cbn [andb].
    destruct (Z.compare_spec z z') as [->|H|H]; symmetry; [apply Z.eqb_refl|apply Z.eqb_neq; lia|apply Z.eqb_neq; lia].
  - intros ->. destruct w as [|s' z'|s']; cbn [cell_ok]; [tauto|intros (-> & B & _); discriminate|]. intros _. reflexivity.
Qed.
Lemma value_eqb_eq a b : value_eqb a b = true <-> a = b.
Proof.
  destruct a as [|t z|s], b as [|t' z'|s']; cbn; try (split; [discriminate|congruence]); [split; reflexivity| |].
  - unfold lty_eqb. destruct (lty_eq_dec t t') as [->|N]; cbn; [|split; [discriminate|congruence]]. rewrite Z.eqb_eq. split; congruence.
  - rewrite beqb_eq. split; congruence.
Qed.
Lemma opt_eqb_eq {A} (e : A -> A -> bool) : (forall x y, e x y = true <-> x = y) -> forall a b, opt_eqb e a b = true <-> a = b.
Proof. intros H [a|] [b|]; cbn; try (split; [discriminate|congruence]); [rewrite H; split; congruence|split; reflexivity]. Qed.
Lemma same_key_eq cs fs a b : same_key cs fs a b = true <-> key_values cs fs a = key_values cs fs b.
Proof.
  unfold same_key, key_values. induction fs as [|f fs IH]; cbn [forallb map]; [split; reflexivity|].
  rewrite andb_true_iff, IH, (opt_eqb_eq _ (opt_eqb_eq _ value_eqb_eq)). split; [intros [-> ->]; reflexivity|intros H; injection H; auto].
Qed.

(** ** Sorting *)
Definition reverse_of (c : comparison) : comparison := CompOpp c.
Lemma key_column cs s : (match key_name cs s with Some (k, _) => existsb (fun c => beqb k (fst c)) cs | None => false end) = true ->
  exists k asc t, key_name cs s = Some (k, asc) /\ lookup beqb k cs = Some t.
Proof.
  destruct (key_name cs s) as [[k asc]|]; [|discriminate]. intros H. apply existsb_exists in H. destruct H as ([k' t] & I & E). apply beqb_eq in E. cbn in E. subst k'.
  destruct (lookup beqb k cs) as [t'|] eqn:L; [eauto 6|]. apply lookup_none in L. exfalso. apply L. apply (in_map fst) in I. exact I.
Qed.
Lemma nth_ar cs row j k t o : row_ok cs row -> nth_error cs j = Some (k, t) -> nth_error row j = Some o -> nth_error (ar cs row) j = Some (k, strip o).
Proof.
  intros R. revert j. unfold ar. induction R as [|col o' cs row C R IH]; intros [|j]; cbn; try discriminate.
  - intros E F. injection E as ->. injection F as ->. reflexivity.
  - apply IH.
Qed.
(** With distinct names the column at a position is the one found by its name. *)
Lemma nth_lookup cs j k (t : lty) : NoDup (map fst cs) -> nth_error cs j = Some (k, t) -> lookup beqb k cs = Some t /\ index_of k cs = Some j.
Proof.
  intros N E. split; [apply lookup_in; [exact N|apply nth_error_In with j; exact E]|].
  revert j E. induction cs as [|[k' t'] cs IH]; intros [|j] E; cbn in *; try discriminate; inversion_clear N.
  - injection E as -> ->. rewrite (proj2 (beqb_eq k k) eq_refl). reflexivity.
  - destruct (beqb_spec k k') as [->|D].
    + exfalso. apply H. apply nth_error_In in E. apply (in_map fst) in E. exact E.
    + rewrite (IH H0 _ E). reflexivity.
Qed.

Lemma before_positions cs ks a b : NoDup (map fst cs) -> good cs a -> good cs b -> keys_ok cs ks = true -> positions ks = true ->
  exists o, row_order cs ks a b = Some o /\ row_before ks (ar cs a) (ar cs b) = Ok (match o with Gt => false | _ => true end).
Proof.
  intros ND A B. induction ks as [|s ks IH]; cbn [keys_ok positions forallb row_order row_before]; intros K P.
  - exists Eq. split; reflexivity.
  - apply andb_true_iff in K. destruct K as [K K']. apply andb_true_iff in P. destruct P as [P P'].
    destruct (IH K' P') as (o & RO & RB). destruct s as [j asc|]; [|discriminate].
    destruct (key_column cs (ByPos j asc) K) as (k & asc' & t & KN & L). rewrite KN. cbn [key_name] in KN.
    destruct (nth_error cs j) as [[k' t']|] eqn:C; [|discriminate]. injection KN as -> ->.
    destruct (nth_lookup _ _ _ _ ND C) as [L' I]. assert (t' = t) by congruence. subst t'.
    destruct (good_cell _ _ _ _ A L) as (v & jv & Ea & Ka & Ia & _ & Na). destruct (good_cell _ _ _ _ B L) as (w & jw & Eb & Kb & Ib & _ & Nb).
    assert (jv = j) by congruence. assert (jw = j) by congruence. subst jv jw.
    cbn [compare_by]. rewrite (nth_ar _ _ _ _ _ _ (proj1 A) C Na), (nth_ar _ _ _ _ _ _ (proj1 B) C Nb). cbn [snd strip rbind].
    rewrite (same_compare _ _ _ Ka Kb). unfold content. rewrite Ea, Eb.
    destruct (same_rel _ _ _ Ka Kb) as (x & y & -> & -> & ->). destruct (lc v w); destruct asc'; cbn [CompOpp]; eauto.
Qed.
Lemma before_names cs ks a b : NoDup (map fst cs) -> good cs a -> good cs b -> keys_ok cs ks = true -> names ks = true ->
  exists o, row_order cs ks a b = Some o /\ row_before ks (ar cs a) (ar cs b) = Ok (match o with Lt => false | _ => true end).
Proof.
  intros ND A B. induction ks as [|s ks IH]; cbn [keys_ok names forallb row_order row_before]; intros K P.
  - exists Eq. split; reflexivity.
  - apply andb_true_iff in K. destruct K as [K K']. apply andb_true_iff in P. destruct P as [P P'].
    destruct (IH K' P') as (o & RO & RB). destruct s as [|k asc]; [discriminate|].
    destruct (key_column cs (ByName k asc) K) as (k' & asc' & t & KN & L). rewrite KN. cbn [key_name] in KN. injection KN as <- <-.
    destruct (good_cell _ _ _ _ A L) as (v & jv & Ea & Ka & _). destruct (good_cell _ _ _ _ B L) as (w & jw & Eb & Kb & _).
    cbn [compare_by]. rewrite !ar_lookup, Ea, Eb. cbn [option_map strip rbind].
    rewrite (same_compare _ _ _ Ka Kb). unfold content. rewrite Ea, Eb.
    destruct (same_rel _ _ _ Ka Kb) as (x & y & -> & -> & ->). destruct (lc v w); destruct asc; cbn [CompOpp]; eauto.
Qed.

(** Sorted rows come from a permutation of the table. *)
Lemma perm_rows cs rs m : Permutation m (map (ar cs) rs) -> exists out, m = map (ar cs) out /\ Permutation out rs.
Proof. intros P. apply Permutation_map_inv in P. destruct P as (out & -> & P). exists out. split; [reflexivity|apply Permutation_sym; exact P]. Qed.
Lemma sorted_map {A B} (f : A -> B) R l : StronglySorted R (map f l) -> StronglySorted (fun a b => R (f a) (f b)) l.
Proof.
  induction l as [|a l IH]; intros H; [constructor|]. cbn in H. inversion_clear H. constructor; [auto|].
  rewrite Forall_forall in *. intros b I. apply H1. apply in_map. exact I.
Qed.
Lemma sorted_weaken {A} (R S : A -> A -> Prop) l : (forall a b, In a l -> In b l -> R a b -> S a b) -> StronglySorted R l -> StronglySorted S l.
Proof.
  induction l as [|a l IH]; intros H K; [constructor|]. inversion_clear K. constructor.
  - apply IH; [|assumption]. intros x y I J. apply H; right; assumption.
  - rewrite Forall_forall in *. intros b I. apply H; [left; reflexivity|right; exact I|auto].
Qed.

(** Turning two rows around turns their order around. *)
Lemma order_turn cs ks : forall a b, row_order cs ks b a = option_map CompOpp (row_order cs ks a b).
Proof.
  induction ks as [|s r IH]; intros a b; cbn [row_order]; [reflexivity|].
  destruct (key_name cs s) as [[k asc]|]; [|reflexivity].
  destruct (content cs b k) as [x|]; destruct (content cs a k) as [y|]; try reflexivity.
  assert (RS : rel y x = option_map CompOpp (rel x y)).
  { destruct x, y; cbn; try reflexivity; f_equal; try apply Z.compare_antisym; apply bcmp_sym. }
  rewrite RS. destruct (rel x y) as [[ | | ]|]; cbn [option_map CompOpp]; [apply IH| | |reflexivity]; destruct asc; reflexivity.
Qed.
Lemma sorted_pair {A} (R : A -> A -> Prop) l a b : StronglySorted R l -> In a l -> In b l -> a = b \/ R a b \/ R b a.
Proof.
  induction 1 as [|x l SS IH F]; [contradiction|]. rewrite Forall_forall in F. intros [->|Ia] [->|Ib]; auto.
Qed.

Section Sort.
  Variables (sort : list (list (list byte * lval)) -> list (list (list byte * lval))) (ks : list skey) (c : chunk).
  Hypothesis T : table c.
  Hypothesis N : no_nulls c.
  Hypothesis K : keys_ok (cols c) ks = true.
  Hypothesis P : forall m, matrix c = Ok m -> Permutation (sort m) m /\ StronglySorted (fun a b => row_before ks a b = Ok true) (sort m).

  Lemma sort_rows : exists out, table_sort sort c = Ok {| cols := cols c; rws := out |} /\ Permutation out (rws c) /\
    StronglySorted (fun a b => row_before ks (ar (cols c) a) (ar (cols c) b) = Ok true) out.
  Proof.
    destruct (P _ (matrix_ok c T N)) as [PM SS]. destruct (perm_rows _ _ _ PM) as (out & E & PO).
    exists out. split; [|split; [exact PO|]].
    - unfold table_sort. rewrite (matrix_ok c T N). cbn [rbind]. rewrite E. apply chunk_rows.
      apply Permutation_Forall with (rws c); [apply Permutation_sym; exact PO|apply good_rows; assumption].
    - rewrite E in SS. apply (sorted_map (ar (cols c)) (fun a b => row_before ks a b = Ok true)). exact SS.
  Qed.
  Lemma good_out out a : Permutation out (rws c) -> In a out -> good (cols c) a.
  Proof. intros PO I. pose proof (good_rows c T N) as G. rewrite Forall_forall in G. apply G. apply Permutation_in with out; assumption. Qed.

  Lemma sort_positions : positions ks = true -> exists out, table_sort sort c = Ok out /\ cols out = cols c /\
    Permutation (rws out) (rws c) /\ in_order (row_order (cols c) ks) (rws out).
  Proof.
    intros PS. destruct sort_rows as (out & E & PO & SS). exists {| cols := cols c; rws := out |}. repeat split; [exact E|exact PO|].
    unfold in_order. cbn [rws]. revert SS. apply sorted_weaken. intros a b Ia Ib H G.
    pose proof (good_out _ _ PO Ia) as A. pose proof (good_out _ _ PO Ib) as B.
    destruct (before_positions _ _ _ _ (proj1 T) A B K PS) as (o & RO & RB). rewrite H in RB.
    rewrite G in RO. injection RO as <-. discriminate.
  Qed.
  Lemma sort_names : names ks = true -> exists out, table_sort sort c = Ok out /\ cols out = cols c /\
    Permutation (rws out) (rws c) /\ StronglySorted (fun a b => row_order (cols c) ks b a <> Some Gt) (rws out).
  Proof.
    intros PS. destruct sort_rows as (out & E & PO & SS). exists {| cols := cols c; rws := out |}. repeat split; [exact E|exact PO|].
    cbn [rws]. revert SS. apply sorted_weaken. intros a b Ia Ib H G.
    pose proof (good_out _ _ PO Ia) as A. pose proof (good_out _ _ PO Ib) as B.
    destruct (before_names _ _ _ _ (proj1 T) A B K PS) as (o & RO & RB). rewrite H in RB.
    rewrite order_turn, RO in G. cbn in G. destruct o; discriminate.
  Qed.
  Lemma sort_reversed x y : names ks = true -> In x (rws c) -> In y (rws c) -> row_order (cols c) ks x y = Some Lt ->
    exists out, table_sort sort c = Ok out /\ Permutation (rws out) (rws c) /\ ~ in_order (row_order (cols c) ks) (rws out).
  Proof.
    intros PS Ix Iy L. destruct (sort_names PS) as (out & E & _ & PO & SS). exists out. split; [exact E|]. split; [exact PO|]. intros SO.
    assert (SB : StronglySorted (fun a b => row_order (cols c) ks a b <> Some Gt /\ row_order (cols c) ks b a <> Some Gt) (rws out)).
    { clear - SS SO. unfold in_order in SO. induction (rws out) as [|a l IH]; [constructor|]. inversion_clear SS. inversion_clear SO. constructor; [auto|].
      rewrite Forall_forall in *. auto. }
    assert (G : row_order (cols c) ks y x = Some Gt) by (rewrite order_turn, L; reflexivity).
    destruct (sorted_pair _ _ x y SB) as [->|[[_ H]|[H _]]]; try (apply Permutation_in with (rws c); [apply Permutation_sym; exact PO|assumption]).
    - rewrite L in G. discriminate.
    - contradiction.
    - contradiction.
  Qed.
End Sort.

Lemma not_strict c ks a : table c -> no_nulls c -> keys_ok (cols c) ks = true -> (positions ks = true \/ names ks = true) -> In a (rws c) ->
  row_before ks (ar (cols c) a) (ar (cols c) a) = Ok true.
Proof.
  intros T N K PN I. pose proof (good_rows c T N) as G. rewrite Forall_forall in G. specialize (G a I).
  assert (RO : forall o, row_order (cols c) ks a a = Some o -> o = Eq).
  { clear. induction ks as [|s r IH]; intros o; cbn [row_order]; [congruence|]. destruct (key_name (cols c) s) as [[k asc]|]; [|discriminate].
    destruct (content (cols c) a k) as [x|]; [|discriminate].
    assert (R : rel x x = Some Eq) by (destruct x as [z|s0|b]; cbn; f_equal; [apply Z.compare_refl|apply bcmp_refl|destruct b; reflexivity]). rewrite R. apply IH. }
  destruct PN as [PN|PN].
  - destruct (before_positions _ _ _ _ (proj1 T) G G K PN) as (o & O & RB). rewrite (RO o O) in RB. exact RB.
  - destruct (before_names _ _ _ _ (proj1 T) G G K PN) as (o & O & RB). rewrite (RO o O) in RB. exact RB.
Qed.
