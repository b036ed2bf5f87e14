(** Proofs about grouping, aggregating and sorting documents. *)
From Verif Require Import Bytes Outcome ByteOrd IndexModel QueryModel QuerySpec QueryProofs GroupModel GroupSpec.
From Verif Require TapeModel TapeProofs.
From Coq Require Import Sorting.Permutation Sorting.Sorted.
Local Open Scope Z_scope.

(** ** Groups *)
Lemma same_value_sym a b : same_value a b = same_value b a.
Proof.
  unfold same_value. destruct a, b; cbn; try reflexivity.
  - rewrite Z.compare_antisym. match goal with |- context [CompOpp ?c] => destruct c; reflexivity end.
  - rewrite Z.compare_antisym. match goal with |- context [CompOpp ?c] => destruct c; reflexivity end.
  - rewrite (bcmp_sym s s0). match goal with |- context [CompOpp ?c] => destruct c; reflexivity end.
Qed.
Lemma same_value_refl a : a <> DNest -> same_value a a = true.
Proof.
  unfold same_value. destruct a; cbn; try reflexivity; intros H.
  - rewrite Z.compare_refl. reflexivity.
  - rewrite Z.compare_refl. reflexivity.
  - rewrite bcmp_refl. reflexivity.
  - congruence.
Qed.
Lemma same_value_trans a b c : same_value a b = true -> same_value b c = same_value a c.
Proof.
  unfold same_value. destruct a, b; cbn; try discriminate; try reflexivity; intros H; destruct c; cbn; try reflexivity.
  - destruct (Z.compare_spec (Z.b2z b0) (Z.b2z b)) as [E| |]; [rewrite E; reflexivity|discriminate|discriminate].
  - destruct (Z.compare_spec z z0) as [E| |]; [rewrite E; reflexivity|discriminate|discriminate].
  - destruct (bcmp s s0) eqn:E; try discriminate. apply bcmp_eq in E. subst. reflexivity.
Qed.

Lemma equals_same a b : groupable (Some a) (Some b) = true -> is_equals_value (widen a) (widen b) = same_value a b.
Proof.
  unfold same_value.
  assert (E : forall x y (c : N), N.eqb c c && (x =? y) = match Some (x ?= y) with Some Eq => true | _ => false end).
  { intros x y c. rewrite N.eqb_refl. cbn. rewrite Z.eqb_compare. destruct (x ?= y); reflexivity. }
  destruct a as [|x|k x|x|], b as [|y|k' y|y|]; intros G; try discriminate G; try reflexivity.
  all: try (destruct x, y; reflexivity).
  all: try (destruct k; reflexivity).
  all: try (destruct k'; reflexivity).
  destruct k, k'; try discriminate G; cbn [widen TapeModel.signed is_equals_value order]; apply E.
Qed.

Section Groups.
  Variable ks : list (list byte).

  Definition kv_of (d : doc) : list dval := map (fun k => match field d k with Some v => widen v | None => DNull end) ks.

  Lemma key_values_some d : has_keys ks d = true -> (forall k, In k ks -> field d k <> Some DNest) -> key_values ks d = Some (kv_of d).
  Proof.
    unfold kv_of, has_keys. induction ks as [|k r IH]; intros H N; cbn; [reflexivity|]. cbn in H. apply andb_true_iff in H. destruct H as [H1 H2].
    assert (Nk : field d k <> Some DNest) by (apply N; left; reflexivity).
    unfold get_value. destruct (field d k) as [v|]; [|discriminate].
    rewrite IH; [|exact H2|intros; apply N; right; assumption]. destruct v; try reflexivity. congruence.
  Qed.
  Lemma key_values_none d : has_keys ks d = false -> key_values ks d = None.
  Proof.
    unfold has_keys. induction ks as [|k r IH]; cbn; [discriminate|]. unfold get_value. destruct (field d k) as [v|]; [|reflexivity].
    cbn. intros H. rewrite (IH H). destruct v; reflexivity.
  Qed.

  Lemma equal_keys_same a b : has_keys ks a = true -> has_keys ks b = true ->
    (forall k, In k ks -> groupable (field a k) (field b k) = true) -> equal_keys (kv_of a) (kv_of b) = same_keys ks a b.
  Proof.
    unfold kv_of, has_keys, same_keys. induction ks as [|k r IH]; intros A B G; cbn; [reflexivity|]. cbn in A, B.
    apply andb_true_iff in A. apply andb_true_iff in B. destruct A as [A1 A2], B as [B1 B2].
    rewrite IH; [|assumption|assumption|intros; apply G; right; assumption].
    assert (Gk := G k (or_introl eq_refl)). destruct (field a k) as [x|]; [|discriminate]. destruct (field b k) as [y|]; [|discriminate].
    rewrite equals_same by exact Gk. reflexivity.
  Qed.

  Lemma same_keys_sym a b : same_keys ks a b = same_keys ks b a.
  Proof.
    unfold same_keys. induction ks as [|k r IH]; cbn; [reflexivity|]. rewrite IH. f_equal.
    destruct (field a k), (field b k); try reflexivity. apply same_value_sym.
  Qed.
  Lemma same_keys_refl a : has_keys ks a = true -> (forall k, In k ks -> field a k <> Some DNest) -> same_keys ks a a = true.
  Proof.
    unfold same_keys, has_keys. induction ks as [|k r IH]; cbn; [reflexivity|]. intros H N. apply andb_true_iff in H. destruct H as [H1 H2].
    assert (Nk : field a k <> Some DNest) by (apply N; left; reflexivity).
    rewrite IH; [|exact H2|intros; apply N; right; assumption]. destruct (field a k) as [x|]; [|discriminate].
    rewrite same_value_refl by congruence. reflexivity.
  Qed.
  Lemma same_keys_trans a b c : same_keys ks a b = true -> same_keys ks b c = same_keys ks a c.
  Proof.
    unfold same_keys. induction ks as [|k r IH]; cbn; [reflexivity|]. intros H. apply andb_true_iff in H. destruct H as [H1 H2].
    rewrite (IH H2). f_equal. destruct (field a k) as [x|]; [|discriminate]. destruct (field b k) as [y|]; [|discriminate].
    destruct (field c k); [|reflexivity]. apply same_value_trans, H1.
  Qed.

  Lemma filter_snoc {A} (g : A -> bool) l x : filter g (l ++ [x]) = filter g l ++ (if g x then [x] else []).
  Proof. rewrite filter_app. cbn. destruct (g x); reflexivity. Qed.

  (** Adding a document at the end. *)
  Lemma leaders_snoc ds d : leaders ks (ds ++ [d]) = leaders ks ds ++ (if existsb (fun x => same_keys ks x d) ds then [] else [d]).
  Proof.
    induction ds as [|x ds IH]; cbn [leaders app existsb]; [reflexivity|]. rewrite IH, filter_app. cbn [app]. f_equal. f_equal.
    destruct (existsb (fun x => same_keys ks x d) ds); cbn.
    - destruct (same_keys ks x d); reflexivity.
    - destruct (same_keys ks x d); reflexivity.
  Qed.
  Lemma leaders_In ds d : In d (leaders ks ds) -> In d ds.
  Proof.
    revert d. induction ds as [|x ds IH]; cbn; [tauto|]. intros d [->|I]; [auto|]. apply filter_In in I. right. apply IH. tauto.
  Qed.
  (** A document with the same keys as some document has the same keys as some leader, and only one. *)
  Lemma leaders_cover ds d : existsb (fun x => same_keys ks x d) ds = true -> existsb (fun x => same_keys ks x d) (leaders ks ds) = true.
  Proof.
    induction ds as [|x ds IH]; cbn; [discriminate|]. intros H. destruct (same_keys ks x d) eqn:E; [reflexivity|]. cbn in *.
    specialize (IH H). apply existsb_exists in IH. destruct IH as (y & I & S). apply existsb_exists. exists y. split; [|exact S].
    apply filter_In. split; [exact I|]. apply negb_true_iff. apply not_true_is_false. intros T.
    rewrite <- (same_keys_trans x y d T) in E. congruence.
  Qed.

  Lemma add_to_skip kv d ls F : (forall l, In l ls -> equal_keys kv (kv_of l) = false) ->
    add_to kv d (map (fun l => (kv_of l, F l)) ls) = map (fun l => (kv_of l, F l)) ls ++ [(kv, [d])].
  Proof.
    induction ls as [|l ls IH]; intros H; cbn; [reflexivity|]. rewrite (H l) by (left; reflexivity). rewrite IH; [reflexivity|].
    intros; apply H; right; assumption.
  Qed.
  (** Exactly one leader has the keys: its group grows. *)
  Lemma add_to_hit kv d ls F : existsb (fun l => equal_keys kv (kv_of l)) ls = true ->
    ForallOrdPairs (fun a b => equal_keys kv (kv_of a) = true -> equal_keys kv (kv_of b) = false) ls ->
    add_to kv d (map (fun l => (kv_of l, F l)) ls) = map (fun l => (kv_of l, F l ++ (if equal_keys kv (kv_of l) then [d] else []))) ls.
  Proof.
    induction ls as [|l ls IH]; intros H P; cbn in *; [discriminate|]. inversion P as [|? ? P1 P2]; subst.
    destruct (equal_keys kv (kv_of l)) eqn:E.
    - f_equal. apply map_ext_in. intros x I. rewrite Forall_forall in P1. rewrite (P1 x I eq_refl), app_nil_r. reflexivity.
    - rewrite app_nil_r. f_equal. apply IH; assumption.
  Qed.
  Lemma leaders_pairs ds (Q : doc -> Prop) : (forall d, In d ds -> Q d) -> ForallOrdPairs (fun a b => Q a /\ Q b /\ same_keys ks a b = false) (leaders ks ds).
  Proof.
    induction ds as [|x ds IH]; intros H; cbn; [constructor|]. constructor.
    - apply Forall_forall. intros y I. apply filter_In in I. destruct I as [I S]. apply negb_true_iff in S.
      split; [apply H; left; reflexivity|]. split; [apply H; right; apply leaders_In, I|exact S].
    - specialize (IH (fun d I => H d (or_intror I))). clear - IH. induction IH as [|y l F _ IH']; cbn; [constructor|].
      destruct (negb (same_keys ks x y)); [|exact IH']. constructor; [|exact IH'].
      apply Forall_forall. intros z I. apply filter_In in I. rewrite Forall_forall in F. apply F. tauto.
  Qed.

  Definition as_groups (ds : list doc) : list (list dval * list doc) :=
    map (fun l => (kv_of l, filter (same_keys ks l) ds)) (leaders ks ds).

  Lemma group_fold ds : plain ks ds -> fold_left (group_step ks) ds [] = as_groups (filter (has_keys ks) ds).
  Proof.
    induction ds as [|d ds IH] using rev_ind; intros P; [reflexivity|].
    assert (P' : plain ks ds) by (intros a b k A B; apply P; apply in_app_iff; auto).
    rewrite fold_left_app, (IH P'). cbn [fold_left]. unfold group_step.
    assert (Nd : forall x k, In x (ds ++ [d]) -> In k ks -> field x k <> Some DNest).
    { intros x k I K E. specialize (P x x k I I K). rewrite E in P. discriminate. }
    assert (Id : In d (ds ++ [d])) by (apply in_app_iff; right; left; reflexivity).
    rewrite filter_snoc. destruct (has_keys ks d) eqn:H.
    2:{ rewrite key_values_none, app_nil_r by exact H. reflexivity. }
    rewrite (key_values_some d H) by (intros; apply Nd; assumption).
    set (hs := filter (has_keys ks) ds) in *.
    assert (Hh : forall x, In x hs -> has_keys ks x = true /\ In x ds) by (intros x I; apply filter_In in I; tauto).
    assert (EK : forall x, In x hs -> equal_keys (kv_of d) (kv_of x) = same_keys ks x d).
    { intros x I. destruct (Hh x I) as [A B]. rewrite equal_keys_same; [apply same_keys_sym|exact H|exact A|].
      intros k K. apply P; [exact Id|apply in_app_iff; auto|exact K]. }
    unfold as_groups. rewrite leaders_snoc.
    destruct (existsb (fun x => same_keys ks x d) hs) eqn:X.
    - rewrite add_to_hit.
      + rewrite app_nil_r. apply map_ext_in. intros l I. f_equal. rewrite filter_snoc. rewrite EK by (apply leaders_In, I). reflexivity.
      + apply leaders_cover in X. apply existsb_exists in X. destruct X as (y & I & S). apply existsb_exists. exists y. split; [exact I|].
        rewrite EK by (apply leaders_In, I). exact S.
      + pose proof (leaders_pairs hs (fun x => In x hs) (fun x I => I)) as F. induction F as [|a l Fa _ IHl]; constructor; [|exact IHl].
        apply Forall_forall. intros b Ib. rewrite Forall_forall in Fa. destruct (Fa b Ib) as (Ia & Ib' & S).
        rewrite (EK a Ia), (EK b Ib'). intros T. apply not_true_is_false. intros U.
        rewrite same_keys_sym in U. rewrite <- (same_keys_trans a d b T) in S. congruence.
    - assert (No : forall x, In x hs -> same_keys ks x d = false).
      { intros x I. apply not_true_is_false. intros T. assert (existsb (fun x => same_keys ks x d) hs = true) by (apply existsb_exists; exists x; auto). congruence. }
      rewrite add_to_skip.
      + rewrite map_app. f_equal.
        * apply map_ext_in. intros l I. f_equal. rewrite filter_snoc, (No l), app_nil_r by (apply leaders_In, I). reflexivity.
        * cbn. f_equal. f_equal. rewrite filter_snoc. rewrite same_keys_refl by (auto; intros; apply Nd; assumption).
          replace (filter (same_keys ks d) hs) with (@nil doc); [reflexivity|].
          symmetry. clear - No. induction hs as [|x hs IH]; [reflexivity|]. cbn. rewrite same_keys_sym, (No x) by (left; reflexivity).
          apply IH. intros; apply No; right; assumption.
      + intros l I. rewrite EK by (apply leaders_In, I). apply No, leaders_In, I.
  Qed.

  Theorem group_ok ds : plain ks ds -> let hs := filter (has_keys ks) ds in
    map snd (group ks ds) = map (fun l => filter (same_keys ks l) hs) (leaders ks hs) /\
    map fst (group ks ds) = map kv_of (leaders ks hs).
  Proof. intros P. cbn zeta. unfold group. rewrite (group_fold ds P). unfold as_groups. rewrite !map_map. split; reflexivity. Qed.

  (** Every document is in one group. *)
  Lemma partition_leaders ds : (forall d, In d ds -> same_keys ks d d = true) ->
    Permutation (concat (map (fun l => filter (same_keys ks l) ds) (leaders ks ds))) ds.
  Proof.
    induction ds as [|d ds IH] using rev_ind; intros R; [reflexivity|].
    assert (R' : forall x, In x ds -> same_keys ks x x = true) by (intros; apply R, in_app_iff; auto).
    assert (Rd : same_keys ks d d = true) by (apply R, in_app_iff; right; left; reflexivity).
    specialize (IH R'). rewrite leaders_snoc.
    destruct (existsb (fun x => same_keys ks x d) ds) eqn:X.
    - rewrite app_nil_r. apply leaders_cover in X.
      pose proof (leaders_pairs ds (fun _ => True) (fun _ _ => I)) as F.
      rewrite <- IH at 2. clear IH R R'. revert X F. generalize (leaders ks ds) as ls. induction ls as [|l ls IHl]; cbn; [discriminate|].
      intros X F. inversion F as [|? ? F1 F2]; subst. rewrite filter_snoc. destruct (same_keys ks l d) eqn:E.
      + replace (map (fun l0 => filter (same_keys ks l0) (ds ++ [d])) ls) with (map (fun l0 => filter (same_keys ks l0) ds) ls).
        * rewrite <- app_assoc. rewrite <- app_assoc. apply Permutation_app_head, Permutation_app_comm.
        * apply map_ext_in. intros x I. rewrite filter_snoc. rewrite Forall_forall in F1. destruct (F1 x I) as (_ & _ & S).
          assert (Z : same_keys ks x d = false); [|rewrite Z, app_nil_r; reflexivity].
          apply not_true_is_false. intros T. rewrite same_keys_sym in T. rewrite <- (same_keys_trans l d x E) in S. congruence.
      + rewrite app_nil_r, <- app_assoc. apply Permutation_app_head. apply IHl; [exact X|exact F2].
    - assert (No : forall x, In x ds -> same_keys ks x d = false).
      { intros x I. apply not_true_is_false. intros T. assert (existsb (fun x => same_keys ks x d) ds = true) by (apply existsb_exists; exists x; auto). congruence. }
      rewrite map_app, concat_app. cbn [map concat]. rewrite app_nil_r. apply Permutation_app.
      + replace (map (fun l => filter (same_keys ks l) (ds ++ [d])) (leaders ks ds)) with (map (fun l => filter (same_keys ks l) ds) (leaders ks ds)); [exact IH|].
        apply map_ext_in. intros x I. rewrite filter_snoc, (No x), app_nil_r by (apply leaders_In, I). reflexivity.
      + rewrite filter_snoc, Rd. replace (filter (same_keys ks d) ds) with (@nil doc); [reflexivity|].
        symmetry. clear - No. induction ds as [|x ds IH]; [reflexivity|]. cbn. rewrite same_keys_sym, (No x) by (left; reflexivity).
        apply IH. intros; apply No; right; assumption.
  Qed.
  Theorem group_partition ds : plain ks ds -> Permutation (concat (map snd (group ks ds))) (filter (has_keys ks) ds).
  Proof.
    intros P. destruct (group_ok ds P) as [E _]. cbn zeta in E. rewrite E. apply partition_leaders.
    intros d I. apply filter_In in I. destruct I as [I H]. apply same_keys_refl; [exact H|].
    intros k K E'. specialize (P d d k I I K). rewrite E' in P. discriminate.
  Qed.
End Groups.

(** ** Sums *)
Definition sum_type (sgn : bool) : ik := if sgn then TapeModel.I64 else TapeModel.U64.

Lemma wide_fits sgn t z : Bool.eqb (TapeModel.signed t) sgn && negb (N.eqb (TapeModel.code t) 11) && TapeModel.fits t z = true ->
  TapeModel.fits (sum_type sgn) z = true.
Proof.
  intros H. apply andb_true_iff in H. destruct H as [H F]. apply andb_true_iff in H. destruct H as [S C].
  apply TapeProofs.fits_iff in F. apply TapeProofs.fits_iff.
  destruct t; cbn in S, C; try discriminate; destruct sgn; try discriminate;
    unfold TapeModel.imin, TapeModel.imax in *; cbn in *; lia.
Qed.
Lemma sum_step_ok sgn t z acc : Bool.eqb (TapeModel.signed t) sgn && negb (N.eqb (TapeModel.code t) 11) && TapeModel.fits t z = true ->
  TapeModel.fits (sum_type sgn) acc = true -> TapeModel.fits (sum_type sgn) (acc + z) = true ->
  sum (Some (DInt (sum_type sgn) acc)) (Some (DInt t z)) = Ok (Some (DInt (sum_type sgn) (acc + z))).
Proof.
  intros H A S. pose proof (wide_fits _ _ _ H) as W.
  assert (E : plus_as (sum_type sgn) (Some (DInt (sum_type sgn) acc)) (Some (DInt t z)) = Ok (Some (DInt (sum_type sgn) (acc + z)))).
  { unfold plus_as, operand, as_int_of. rewrite (read_as_fits _ _ _ A), (read_as_fits _ _ _ W). cbn [rbind]. rewrite S.
    destruct (TapeModel.signed (sum_type sgn)); [reflexivity|]. rewrite TapeProofs.cast_ok by exact S. reflexivity. }
  destruct sgn; exact E.
Qed.
Lemma sum_first_ok sgn t z : Bool.eqb (TapeModel.signed t) sgn && negb (N.eqb (TapeModel.code t) 11) && TapeModel.fits t z = true ->
  sum None (Some (DInt t z)) = Ok (Some (DInt (sum_type sgn) z)).
Proof.
  intros H. pose proof (wide_fits _ _ _ H) as W.
  assert (E : plus_as (sum_type sgn) None (Some (DInt t z)) = Ok (Some (DInt (sum_type sgn) z))).
  { unfold plus_as, operand, as_int_of. rewrite (read_as_fits _ _ _ W). cbn [rbind]. rewrite Z.add_0_l, W.
    destruct (TapeModel.signed (sum_type sgn)); [reflexivity|]. rewrite TapeProofs.cast_ok by exact W. reflexivity. }
  destruct t; cbn in H; destruct sgn; cbn in H; try discriminate; exact E.
Qed.
Lemma sum_missing sgn acc : TapeModel.fits (sum_type sgn) acc = true ->
  sum (Some (DInt (sum_type sgn) acc)) None = Ok (Some (DInt (sum_type sgn) acc)).
Proof.
  intros A. assert (E : plus_as (sum_type sgn) (Some (DInt (sum_type sgn) acc)) None = Ok (Some (DInt (sum_type sgn) acc))).
  { unfold plus_as, operand, as_int_of. rewrite (read_as_fits _ _ _ A). cbn [rbind]. rewrite Z.add_0_r, A.
    destruct (TapeModel.signed (sum_type sgn)); [reflexivity|]. rewrite TapeProofs.cast_ok by exact A. reflexivity. }
  destruct sgn; exact E.
Qed.

Lemma sum_loop_acc sgn k ds : forall acc, TapeModel.fits (sum_type sgn) acc = true -> number_field sgn k ds = true ->
  sums_fit (sum_type sgn) acc (numbers k ds) = true ->
  sum_loop (Some (DInt (sum_type sgn) acc)) k ds = Ok (Some (DInt (sum_type sgn) (acc + total (numbers k ds)))).
Proof.
  induction ds as [|d ds IH]; intros acc A N S; cbn [sum_loop].
  - cbn. rewrite Z.add_0_r. reflexivity.
  - unfold number_field in N. cbn in N. apply andb_true_iff in N. destruct N as [N1 N2].
    unfold numbers in S |- *. cbn [flat_map] in S |- *. unfold get_value. destruct (field d k) as [v|].
    + destruct v as [| |t z| |]; try discriminate. cbn [app sums_fit] in S. apply andb_true_iff in S. destruct S as [S1 S2].
      rewrite (sum_step_ok sgn t z acc N1 A S1). cbn [rbind]. rewrite (IH _ S1 N2 S2). cbn [app total fold_right].
      do 3 f_equal. fold (total (flat_map (fun d => match field d k with Some (DInt _ z) => [z] | _ => [] end) ds)).
      unfold numbers, total. lia.
    + rewrite sum_missing by exact A. cbn [rbind]. apply IH; assumption.
Qed.
Lemma sum_loop_none sgn k ds : number_field sgn k ds = true -> sums_fit (sum_type sgn) 0 (numbers k ds) = true ->
  numbers k ds <> [] -> sum_loop None k ds = Ok (Some (DInt (sum_type sgn) (total (numbers k ds)))).
Proof.
  induction ds as [|d ds IH]; intros N S E; [contradiction|]. cbn [sum_loop].
  unfold number_field in N. cbn in N. apply andb_true_iff in N. destruct N as [N1 N2].
  unfold numbers in S, E |- *. cbn [flat_map] in S, E |- *. unfold get_value. destruct (field d k) as [v|].
  - destruct v as [| |t z| |]; try discriminate. cbn [app sums_fit] in S. apply andb_true_iff in S. destruct S as [S1 S2].
    rewrite (sum_first_ok sgn t z N1). cbn [rbind]. rewrite Z.add_0_l in *. rewrite (sum_loop_acc sgn k ds z S1 N2 S2). reflexivity.
  - cbn. apply IH; assumption.
Qed.
Theorem agg_sum_ok sgn k ds : number_field sgn k ds = true -> sums_fit (sum_type sgn) 0 (numbers k ds) = true ->
  numbers k ds <> [] -> agg_sum k ds = Ok (Some (DInt (sum_type sgn) (total (numbers k ds)))).
Proof.
  intros N S E. unfold agg_sum. rewrite (sum_loop_none sgn k ds N S E). cbn [rbind]. destruct sgn; reflexivity.
Qed.

Lemma sum_loop_missing k ds : (forall d, In d ds -> field d k = None \/ field d k = Some DNull) -> sum_loop None k ds = Ok None.
Proof.
  induction ds as [|d ds IH]; intros H; cbn; [reflexivity|]. unfold get_value.
  destruct (H d) as [E|E]; [left; reflexivity| |]; rewrite E; cbn; (apply IH; intros; apply H; right; assumption).
Qed.

(** ** Orders *)
Lemma compare_docs_order a b k : orderable (field a k) (field b k) = true -> compare_docs a k b k = Ok (key_order (field a k) (field b k)).
Proof.
  unfold compare_docs. destruct (field a k) as [x|], (field b k) as [y|]; cbn [orderable key_order]; try reflexivity.
  2:{ destruct x; reflexivity. }
  destruct x as [|p|t z|s|], y as [|q|t' z'|s'|]; try discriminate; try reflexivity; intros C.
  - apply (compare_order (DBool p) (DBool q)) in C. destruct C as (o & O & K & _). rewrite K, O. reflexivity.
  - apply (compare_order (DInt t z) (DInt t' z')) in C. destruct C as (o & O & K & _). rewrite K, O. reflexivity.
Qed.

Lemma key_order_sym a b : key_order b a = CompOpp (key_order a b).
Proof.
  destruct a as [[|p|t z|s|]|], b as [[|q|t' z'|s'|]|]; try reflexivity; cbn.
  - apply Z.compare_antisym.
  - apply Z.compare_antisym.
  - apply bcmp_sym.
Qed.
Lemma key_order_trans a b c : orderable a b = true -> orderable b c = true -> orderable a c = true ->
  key_order a b <> Gt -> key_order b c <> Gt ->
  key_order a c <> Gt /\ (key_order a b = Lt \/ key_order b c = Lt -> key_order a c = Lt).
Proof.
  destruct a as [[|p|t z|s|]|], b as [[|q|t' z'|s'|]|], c as [[|r|t'' z''|s''|]|]; cbn; try discriminate;
    intros _ _ _; try (intros; split; [congruence|intros [|]; congruence]).
  - destruct (Z.compare_spec (Z.b2z p) (Z.b2z q)), (Z.compare_spec (Z.b2z q) (Z.b2z r)), (Z.compare_spec (Z.b2z p) (Z.b2z r));
      intros; split; try congruence; try lia; intros [|]; congruence || lia.
  - destruct (Z.compare_spec z z'), (Z.compare_spec z' z''), (Z.compare_spec z z'');
      intros; split; try congruence; try lia; intros [|]; congruence || lia.
  - intros A B. destruct (bcmp s s') eqn:E1; [| |congruence].
    + apply bcmp_eq in E1. subst s'. split; [exact B|]. intros [|]; congruence.
    + destruct (bcmp s' s'') eqn:E2; [| |congruence].
      * apply bcmp_eq in E2. subst s''. rewrite E1. split; [discriminate|reflexivity].
      * rewrite (bcmp_trans _ _ _ E1 E2). split; [discriminate|reflexivity].
Qed.

Definition lexb (ks : list (list byte * bool)) (a b : doc) : bool := match lex ks a b with Lt => true | _ => false end.

Lemma before_lex ks a b : (forall k asc, In (k, asc) ks -> orderable (field a k) (field b k) = true) ->
  before ks a b = Ok (lexb ks a b).
Proof.
  unfold lexb. induction ks as [|[k asc] ks IH]; intros H; cbn [before lex]; [reflexivity|].
  rewrite compare_docs_order by (eapply H; left; reflexivity). cbn [rbind].
  replace (if asc then key_order (field a k) (field b k) else key_order (field b k) (field a k))
    with (directed asc (key_order (field a k) (field b k))) by (destruct asc; cbn; [|rewrite <- key_order_sym]; reflexivity).
  rewrite IH by (intros; eapply H; right; eassumption).
  destruct (directed asc (key_order (field a k) (field b k))); reflexivity.
Qed.
Lemma lex_sym ks a b : lex ks b a = CompOpp (lex ks a b).
Proof.
  induction ks as [|[k asc] ks IH]; cbn; [reflexivity|].
  destruct asc.
  - rewrite (key_order_sym (field a k) (field b k)). destruct (key_order (field a k) (field b k)); cbn; auto.
  - rewrite (key_order_sym (field b k) (field a k)). destruct (key_order (field b k) (field a k)); cbn; auto.
Qed.
Lemma lex_trans ks ds a b c : sortable ks ds -> In a ds -> In b ds -> In c ds -> lex ks a b <> Gt -> lex ks b c <> Gt ->
  lex ks a c <> Gt /\ (lex ks a b = Lt \/ lex ks b c = Lt -> lex ks a c = Lt).
Proof.
  intros S A B C. induction ks as [|[k asc] ks IH]; cbn [lex].
  - intros; split; [discriminate|intros [|]; discriminate].
  - assert (S' : sortable ks ds) by (intros x y k' asc' X Y K; eapply S; try eassumption; right; exact K).
    specialize (IH S').
    assert (O : forall x y, In x ds -> In y ds -> orderable (field x k) (field y k) = true).
    { intros x y X Y. eapply S; try eassumption. left. reflexivity. }
    set (f := fun x y => if asc : bool then key_order (field x k) (field y k) else key_order (field y k) (field x k)).
    change (if asc then key_order (field a k) (field b k) else key_order (field b k) (field a k)) with (f a b).
    change (if asc then key_order (field b k) (field c k) else key_order (field c k) (field b k)) with (f b c).
    change (if asc then key_order (field a k) (field c k) else key_order (field c k) (field a k)) with (f a c).
    assert (T : f a b <> Gt -> f b c <> Gt -> f a c <> Gt /\ (f a b = Lt \/ f b c = Lt -> f a c = Lt)).
    { unfold f. destruct asc; intros X Y.
      - apply (key_order_trans _ (field b k)); auto.
      - destruct (key_order_trans (field c k) (field b k) (field a k)) as [P Q]; auto. split; [exact P|]. tauto. }
    assert (E : f a b = Eq -> f b c = Eq -> f a c = Eq).
    { assert (R : forall x y, f y x = CompOpp (f x y)) by (intros x y; unfold f; destruct asc; apply key_order_sym).
      assert (T' : f c b <> Gt -> f b a <> Gt -> f c a <> Gt /\ (f c b = Lt \/ f b a = Lt -> f c a = Lt)).
      { unfold f. destruct asc; intros X Y.
        - apply (key_order_trans _ (field b k)); auto.
        - destruct (key_order_trans (field a k) (field b k) (field c k)) as [P Q]; auto. split; [exact P|]. tauto. }
      intros X Y. destruct T as [P _]; [congruence|congruence|].
      destruct T' as [P' _]; [rewrite R, Y; discriminate|rewrite R, X; discriminate|]. rewrite (R a c) in P'.
      destruct (f a c); cbn in *; congruence. }
    destruct (f a b) eqn:X; [| |congruence]; destruct (f b c) eqn:Y; try congruence.
    + rewrite E by reflexivity. exact IH.
    + intros _ _. destruct T as [_ Q]; [discriminate|discriminate|]. rewrite Q by auto. split; [discriminate|reflexivity].
    + intros _ _. destruct T as [_ Q]; [discriminate|discriminate|]. rewrite Q by auto. split; [discriminate|reflexivity].
    + intros _ _. destruct T as [_ Q]; [discriminate|discriminate|]. rewrite Q by auto. split; [discriminate|reflexivity].
Qed.

Theorem sort_comparison ks ds : sortable ks ds ->
  (forall a b, In a ds -> In b ds -> before ks a b = Ok (lexb ks a b)) /\ strict_weak (lexb ks) ds.
Proof.
  intros S. split; [intros a b A B; apply before_lex; intros k asc K; eapply S; eassumption|].
  unfold lexb. split; [|split].
  - intros a _. assert (E : lex ks a a = CompOpp (lex ks a a)) by apply lex_sym. destruct (lex ks a a); [reflexivity|discriminate|reflexivity].
  - intros a b c A B C X Y. destruct (lex ks a b) eqn:E1; try discriminate. destruct (lex ks b c) eqn:E2; try discriminate.
    destruct (lex_trans ks ds a b c S A B C) as [_ Q]; [congruence|congruence|]. rewrite Q by auto. reflexivity.
  - intros a b c A B C W X Y Z. rewrite (lex_sym ks a b) in X. rewrite (lex_sym ks b c) in Z.
    destruct (lex ks a b) eqn:E1; try discriminate. destruct (lex ks b c) eqn:E2; try discriminate.
    destruct (lex_trans ks ds a b c S A B C) as [P _]; [congruence|congruence|].
    destruct (lex_trans ks ds c b a S C B A) as [P' _]; [rewrite lex_sym, E2; discriminate|rewrite lex_sym, E1; discriminate|].
    rewrite (lex_sym ks a c) in P' |- *. destruct (lex ks a c); cbn in *; split; congruence.
Qed.

Lemma sorted_lex ks out : StronglySorted (fun a b => lexb ks b a = false) out -> StronglySorted (fun a b => lex ks a b <> Gt) out.
Proof.
  induction 1 as [|a l S IH F]; constructor; [exact IH|]. rewrite Forall_forall in *. intros b I. specialize (F b I).
  unfold lexb in F. rewrite (lex_sym ks a b) in F. destruct (lex ks a b); cbn in F; congruence.
Qed.

(** ** Least and greatest *)
Lemma least k ds : forall best, (forall a b, In a (best :: ds) -> In b (best :: ds) -> orderable (field a k) (field b k) = true) ->
  exists m, min_element k best ds = Ok m /\ In m (best :: ds) /\ forall x, In x (best :: ds) -> key_order (field m k) (field x k) <> Gt.
Proof.
  induction ds as [|d ds IH]; intros best O; cbn [min_element].
  - exists best. split; [reflexivity|]. split; [left; reflexivity|]. intros x [->|[]].
    assert (E : key_order (field x k) (field x k) = CompOpp (key_order (field x k) (field x k))) by apply key_order_sym.
    destruct (key_order (field x k) (field x k)); discriminate.
  - unfold doc_less. rewrite compare_docs_order by (apply O; cbn; auto). cbn [rbind].
    set (best' := if match key_order (field d k) (field best k) with Lt => true | _ => false end then d else best).
    destruct (IH best') as (m & E & I & L).
    { intros a b A B. apply O; unfold best' in *; destruct (key_order (field d k) (field best k)); cbn in A, B; cbn; tauto. }
    exists m. split; [exact E|].
    assert (Im : In m (best :: d :: ds)).
    { unfold best' in I. destruct (key_order (field d k) (field best k)); cbn in I; cbn; tauto. }
    split; [exact Im|].
    assert (Lb : key_order (field m k) (field best' k) <> Gt) by (apply L; left; reflexivity).
    assert (In1 : In best' (best :: d :: ds)) by (unfold best'; destruct (key_order (field d k) (field best k)); cbn; auto).
    assert (D : forall y, (y = best \/ y = d) -> key_order (field best' k) (field y k) <> Gt).
    { assert (RF : forall v, key_order v v <> Gt).
      { intros v. assert (E' : key_order v v = CompOpp (key_order v v)) by apply key_order_sym. destruct (key_order v v); discriminate. }
      intros y [ -> | -> ]; unfold best'; destruct (key_order (field d k) (field best k)) eqn:Q; try apply RF; try congruence.
      - rewrite key_order_sym, Q. discriminate.
      - rewrite key_order_sym, Q. discriminate. }
    intros x [ <- | [ <- | X ] ].
    + apply (key_order_trans _ (field best' k)); [apply O|apply O|apply O|exact Lb|apply D; auto]; cbn; auto.
    + apply (key_order_trans _ (field best' k)); [apply O|apply O|apply O|exact Lb|apply D; auto]; cbn; auto.
    + apply L. right. exact X.
Qed.
Lemma greatest k ds : forall best, (forall a b, In a (best :: ds) -> In b (best :: ds) -> orderable (field a k) (field b k) = true) ->
  exists m, max_element k best ds = Ok m /\ In m (best :: ds) /\ forall x, In x (best :: ds) -> key_order (field x k) (field m k) <> Gt.
Proof.
  induction ds as [|d ds IH]; intros best O; cbn [max_element].
  - exists best. split; [reflexivity|]. split; [left; reflexivity|]. intros x [->|[]].
    assert (E : key_order (field x k) (field x k) = CompOpp (key_order (field x k) (field x k))) by apply key_order_sym.
    destruct (key_order (field x k) (field x k)); discriminate.
  - unfold doc_less. rewrite compare_docs_order by (apply O; cbn; auto). cbn [rbind].
    set (best' := if match key_order (field best k) (field d k) with Lt => true | _ => false end then d else best).
    destruct (IH best') as (m & E & I & L).
    { intros a b A B. apply O; unfold best' in *; destruct (key_order (field best k) (field d k)); cbn in A, B; cbn; tauto. }
    exists m. split; [exact E|].
    assert (Im : In m (best :: d :: ds)).
    { unfold best' in I. destruct (key_order (field best k) (field d k)); cbn in I; cbn; tauto. }
    split; [exact Im|].
    assert (Lb : key_order (field best' k) (field m k) <> Gt) by (apply L; left; reflexivity).
    assert (In1 : In best' (best :: d :: ds)) by (unfold best'; destruct (key_order (field best k) (field d k)); cbn; auto).
    assert (D : forall y, (y = best \/ y = d) -> key_order (field y k) (field best' k) <> Gt).
    { assert (RF : forall v, key_order v v <> Gt).
      { intros v. assert (E' : key_order v v = CompOpp (key_order v v)) by apply key_order_sym. destruct (key_order v v); discriminate. }
      intros y [ -> | -> ]; unfold best'; destruct (key_order (field best k) (field d k)) eqn:Q; try apply RF; try congruence.
      - rewrite key_order_sym, Q. discriminate.
      - rewrite key_order_sym, Q. discriminate. }
    intros x [ <- | [ <- | X ] ].
    + apply (key_order_trans _ (field best' k)); [apply O|apply O|apply O|apply D; auto|exact Lb]; cbn; auto.
    + apply (key_order_trans _ (field best' k)); [apply O|apply O|apply O|apply D; auto|exact Lb]; cbn; auto.
    + apply L. right. exact X.
Qed.

Theorem agg_min_ok k ds : sortable [(k, true)] ds -> ds <> [] ->
  exists m, agg_min k ds = Ok (get_value m k) /\ In m ds /\ forall x, In x ds -> key_order (field m k) (field x k) <> Gt.
Proof.
  intros S E. destruct ds as [|d ds]; [contradiction|]. destruct (least k ds d) as (m & M & I & L).
  { intros a b A B. apply (S a b k true A B). left. reflexivity. }
  exists m. unfold agg_min. rewrite M. auto.
Qed.
Theorem agg_max_ok k ds : sortable [(k, true)] ds -> ds <> [] ->
  exists m, agg_max k ds = Ok (get_value m k) /\ In m ds /\ forall x, In x ds -> key_order (field x k) (field m k) <> Gt.
Proof.
  intros S E. destruct ds as [|d ds]; [contradiction|]. destruct (greatest k ds d) as (m & M & I & L).
  { intros a b A B. apply (S a b k true A B). left. reflexivity. }
  exists m. unfold agg_max. rewrite M. auto.
Qed.
Lemma sortable_not_nest k ds d : sortable [(k, true)] ds -> In d ds -> field d k <> Some DNest.
Proof. intros S I E. specialize (S d d k true I I (or_introl eq_refl)). rewrite E in S. discriminate. Qed.

(** The least of the values there are. *)
Theorem agg_min_values k ds : sortable [(k, true)] ds -> values k ds <> [] ->
  exists v, agg_min k ds = Ok (Some v) /\ In v (values k ds) /\ forall x, In x (values k ds) -> order v x = Some Lt \/ order v x = Some Eq.
Proof.
  intros S E.
  assert (V : forall v, In v (values k ds) <-> exists d, In d ds /\ field d k = Some v /\ v <> DNull).
  { intros v. unfold values. rewrite in_flat_map. split; intros (d & I & F).
    - exists d. destruct (field d k) as [[]|]; cbn in F; try contradiction; destruct F as [F|[]]; subst; repeat split; auto; discriminate.
    - exists d. destruct F as [F N]. rewrite F. destruct v; try contradiction; cbn; auto. }
  destruct ds as [|d0 ds0] eqn:Eds; [contradiction|]. rewrite <- Eds in *.
  destruct (agg_min_ok k ds S) as (m & A & I & L); [rewrite Eds; discriminate|].
  assert (exists w, In w (values k ds)) as (w & W) by (destruct (values k ds); [contradiction|eexists; left; reflexivity]).
  apply V in W. destruct W as (dw & Iw & Fw & Nw).
  assert (M : exists v, field m k = Some v /\ v <> DNull /\ v <> DNest).
  { pose proof (L dw Iw) as C. pose proof (sortable_not_nest k ds m S I) as Nm. pose proof (sortable_not_nest k ds dw S Iw) as Nd. rewrite Fw in *.
    destruct (field m k) as [v|].
    - exists v. split; [reflexivity|]. split; [|congruence]. intros ->. destruct w; cbn in C; congruence.
    - exfalso. apply C. reflexivity. }
  destruct M as (v & Fv & Nv & Tv). exists v. split.
  { rewrite A. unfold get_value. rewrite Fv. destruct v; congruence. }
  split; [apply V; eauto|]. intros x X. apply V in X. destruct X as (d & Id & Fd & Nd).
  pose proof (L d Id) as C. pose proof (S m d k true I Id (or_introl eq_refl)) as O. rewrite Fv, Fd in *.
  destruct v, x; cbn in O, C |- *; try discriminate; try contradiction.
  - destruct (Z.b2z b ?= Z.b2z b0); auto; congruence.
  - destruct (z ?= z0); auto; congruence.
  - destruct (bcmp s s0); auto; congruence.
Qed.
Theorem agg_max_values k ds : sortable [(k, true)] ds -> ds <> [] -> (forall d, In d ds -> exists v, field d k = Some v /\ v <> DNull) ->
  exists v, agg_max k ds = Ok (Some v) /\ In v (values k ds) /\ forall x, In x (values k ds) -> order x v = Some Lt \/ order x v = Some Eq.
Proof.
  intros S E P.
  assert (V : forall v, In v (values k ds) <-> exists d, In d ds /\ field d k = Some v /\ v <> DNull).
  { intros v. unfold values. rewrite in_flat_map. split; intros (d & I & F).
    - exists d. destruct (field d k) as [[]|]; cbn in F; try contradiction; destruct F as [F|[]]; subst; repeat split; auto; discriminate.
    - exists d. destruct F as [F N]. rewrite F. destruct v; try contradiction; cbn; auto. }
  destruct (agg_max_ok k ds S E) as (m & A & I & L).
  destruct (P m I) as (v & Fv & Nv). pose proof (sortable_not_nest k ds m S I) as Tv. rewrite Fv in Tv. exists v. split.
  { rewrite A. unfold get_value. rewrite Fv. destruct v; congruence. }
  split; [apply V; eauto|]. intros x X. apply V in X. destruct X as (d & Id & Fd & Nd).
  pose proof (L d Id) as C. pose proof (S d m k true Id I (or_introl eq_refl)) as O. rewrite Fv, Fd in *.
  destruct x, v; cbn in O, C |- *; try discriminate; try contradiction.
  - destruct (Z.b2z b ?= Z.b2z b0); auto; congruence.
  - destruct (z ?= z0); auto; congruence.
  - destruct (bcmp s s0); auto; congruence.
Qed.
Theorem agg_avg_ok sgn k ds : number_field sgn k ds = true -> ds <> [] -> (forall d, In d ds -> field d k <> None) ->
  sums_fit (sum_type sgn) 0 (numbers k ds) = true ->
  agg_avg k ds = Ok (total (numbers k ds), Z.of_nat (length (numbers k ds))).
Proof.
  intros N E P S.
  assert (L : length (numbers k ds) = length ds).
  { clear E S. induction ds as [|d ds IH]; [reflexivity|]. unfold number_field in N. cbn in N. apply andb_true_iff in N. destruct N as [N1 N2].
    unfold numbers. cbn [flat_map]. rewrite app_length. fold (numbers k ds). rewrite IH; [|exact N2|intros; apply P; right; assumption].
    assert (Pd := P d (or_introl eq_refl)). destruct (field d k) as [[]|]; try discriminate; try congruence. reflexivity. }
  unfold agg_avg. rewrite (sum_loop_none sgn k ds N S), L.
  - destruct ds; [contradiction|]. reflexivity.
  - intros Z. rewrite Z in L. destruct ds; [contradiction|discriminate].
Qed.
