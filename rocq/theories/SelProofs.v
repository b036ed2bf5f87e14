(** Proofs about SELECT statements. *)
From Verif Require Import Bytes Outcome ByteOrd.
From Verif Require TapeModel.
From Verif Require Import IndexModel IndexSpec QueryModel QuerySpec QueryProofs GroupModel GroupSpec GroupProofs
  SqlModel SqlSpec SqlProofs SelModel SelSpec.
From Coq Require Import Sorting.Permutation Sorting.Sorted.
Local Open Scope Z_scope.

Lemma scan_all p f ds : (forall d, In d ds -> p d = Ok (f d)) -> full_scan p (-1) ds = Ok (Some (filter f ds)).
Proof.
  intros H. unfold full_scan. change (limit_check (-1) 0) with true.
  rewrite (scan_loop_filter p f (-1) ds H 0 eq_refl). reflexivity.
Qed.
Lemma filter_all {A} (f : A -> bool) l : (forall x, In x l -> f x = true) -> filter f l = l.
Proof.
  induction l as [|x l IH]; intros H; cbn; [reflexivity|]. rewrite (H x) by (left; reflexivity).
  rewrite IH; [reflexivity|]. intros y Y. apply H. right. exact Y.
Qed.

Section Select.
  Variable digits : Z -> list byte.

  Lemma rows_found q db t gs f : q_from q = [t] -> transform_targets digits (q_targets q) no_params = Ok (gs, no_params) ->
    accepts (q_where q) f (collection db t) ->
    select_rows digits q db = run_group gs (filter f (collection db t)).
  Proof.
    intros F T A. unfold select_rows, transform_select. rewrite F, T. cbn [rbind]. destruct (q_where q) as [n|].
    - destruct A as (P & C & H).
      destruct (transform_ok n no_params 0 P added_none) as (e & st & [R AD K N S G]); [lia|].
      rewrite R. cbn [rbind]. unfold run_plan. cbn [p_from p_match p_group p_params].
      rewrite (scan_all _ f).
      + reflexivity.
      + intros d D. destruct (H d D) as [M I].
        pose proof (G _ (keeps_refl _) d M) as RG. destruct (eval_sat e (vals st) d None RG) as (b & E & Q).
        rewrite E. f_equal. pose proof (S _ (keeps_refl _) d) as SD.
        destruct b, (f d); try reflexivity.
        * assert (false = true) by (apply I, SD, Q; reflexivity). discriminate.
        * assert (false = true) by (apply Q, SD, I; reflexivity). discriminate.
    - cbn [rbind]. unfold run_plan. cbn [p_from p_match p_group p_params]. unfold transfer_scan.
      rewrite (scan_all _ (fun _ => true)) by reflexivity. cbn [rbind].
      rewrite (filter_all f) by exact A. rewrite (filter_all (fun _ => true)) by reflexivity. reflexivity.
  Qed.

  Theorem star_ok q db t f : q_from q = [t] -> q_targets q = [TStar] -> accepts (q_where q) f (collection db t) ->
    sortable (q_order q) (filter f (collection db t)) ->
    select_rows digits q db = Ok (filter f (collection db t)) /\
    forall out, selects digits q db out -> Permutation (filter f (collection db t)) out /\
      StronglySorted (fun a b => lex (q_order q) a b <> Gt) out /\ (q_order q = [] -> out = filter f (collection db t)).
  Proof.
    intros F T A S. assert (R : select_rows digits q db = Ok (filter f (collection db t))).
    { rewrite (rows_found q db t [] f F); [reflexivity| |exact A]. rewrite T. reflexivity. }
    split; [exact R|]. intros out (rows & E & SO). rewrite R in E. injection E as <-.
    unfold sorted in SO. destruct (q_order q) as [|k ks] eqn:Q.
    - subst out. split; [reflexivity|]. split; [|reflexivity].
      clear. induction (filter f (collection db t)) as [|d l IH]; constructor; [exact IH|].
      apply Forall_forall. intros x _. cbn. discriminate.
    - destruct SO as (lt & B & W & P & SS). split; [exact P|]. split; [|discriminate].
      apply sorted_lex. destruct (sort_comparison (k :: ks) _ S) as [B' _].
      assert (I : forall x, In x out -> In x (filter f (collection db t))).
      { intros x X. eapply Permutation_in; [apply Permutation_sym; exact P|exact X]. }
      clear - SS B B' I. revert I. induction SS as [|d l SS IH HF]; intros I; constructor.
      + apply IH. intros x X. apply I. right. exact X.
      + rewrite Forall_forall in HF |- *. intros x X. specialize (HF x X).
        assert (Ix : In x (filter f (collection db t))) by (apply I; right; exact X).
        assert (Id : In d (filter f (collection db t))) by (apply I; left; reflexivity).
        pose proof (B x d Ix Id) as E1. pose proof (B' x d Ix Id) as E2. congruence.
  Qed.

  Lemma targets_columns cs r st : transform_targets digits (columns cs ++ r) st =
    do '(gs, s) <- transform_targets digits r st; Ok (map (fun c => GField c c) cs ++ gs, s).
  Proof.
    induction cs as [|c cs IH]; cbn [columns map app].
    - destruct (transform_targets digits r st) as [[gs s]|x]; reflexivity.
    - cbn [transform_targets rbind]. fold (columns cs). rewrite IH.
      destruct (transform_targets digits r st) as [[gs s]|x]; reflexivity.
  Qed.
  Lemma parts_columns cs r : group_parts (map (fun c => GField c c) cs ++ r) =
    do '(ks, vs) <- group_parts r; Ok (map (fun c => (c, c)) cs ++ ks, vs).
  Proof.
    induction cs as [|c cs IH]; cbn [map app].
    - destruct (group_parts r) as [[ks vs]|x]; reflexivity.
    - cbn [group_parts]. rewrite IH. destruct (group_parts r) as [[ks vs]|x]; reflexivity.
  Qed.
End Select.

Lemma rows_keys names gs : group_rows names [] gs = Ok (map (fun g => {| did := 0%N; fields := combine names (fst g) |}) gs).
Proof. induction gs as [|[kv ds] r IH]; [reflexivity|]. cbn. rewrite IH. reflexivity. Qed.
Lemma combine_map {A B} (f : A -> B) l : combine l (map f l) = map (fun x => (x, f x)) l.
Proof. induction l as [|x l IH]; cbn; congruence. Qed.
Lemma lookup_map {B} (f : list byte -> B) l k : In k l -> lookup beqb k (map (fun x => (x, f x)) l) = Some (f k).
Proof.
  induction l as [|x l IH]; [intros []|]. cbn. destruct (beqb k x) eqn:E.
  - intros _. apply beqb_eq in E. subst. reflexivity.
  - intros [->|H]; [rewrite (proj2 (beqb_eq k k) eq_refl) in E; discriminate|apply IH, H].
Qed.
Lemma same_widen v : v <> DNest -> same_value v (widen v) = true.
Proof.
  intros N. destruct v as [|b|k z|s|]; cbn [widen]; try (apply same_value_refl; congruence).
  destruct k; unfold same_value; cbn; rewrite Z.compare_refl; reflexivity.
Qed.
Lemma plain_not_nest cs ds d c : GroupSpec.plain cs ds -> In d ds -> In c cs -> field d c <> Some DNest.
Proof. intros P D C E. specialize (P d d c D D C). rewrite E in P. discriminate P. Qed.

Lemma leaders_in cs ds x : In x (leaders cs ds) -> In x ds.
Proof.
  revert x. induction ds as [|d ds IH]; cbn; [tauto|]. intros x [H|H]; [left; exact H|]. right.
  apply filter_In in H. apply IH. tauto.
Qed.
Lemma leaders_different cs ds : all_different cs ds -> leaders cs ds = ds.
Proof.
  induction 1 as [|d ds F _ IH]; [reflexivity|]. cbn. rewrite IH. f_equal. apply filter_all.
  rewrite Forall_forall in F. intros x X. rewrite (F x X). reflexivity.
Qed.
Lemma has_all cs ds : (forall d c, In d ds -> In c cs -> field d c <> None) -> filter (has_keys cs) ds = ds.
Proof.
  intros H. apply filter_all. intros d D. apply forallb_forall. intros c C. specialize (H d c D C).
  destruct (field d c); congruence.
Qed.

Definition key_fields (cs : list (list byte)) (d : doc) : list (list byte * dval) :=
  map (fun c => (c, match field d c with Some v => widen v | None => DNull end)) cs.

Lemma row_keys cs d : (forall c, In c cs -> exists v, field d c = Some v /\ v <> DNest) ->
  row_of cs d {| did := 0%N; fields := key_fields cs d |}.
Proof.
  intros H. split.
  - cbn. unfold key_fields. rewrite map_map. cbn. apply map_id.
  - intros c C. destruct (H c C) as (v & V & N). exists v, (widen v). split; [exact V|]. split; [|apply same_widen, N].
    unfold field. cbn [fields]. unfold key_fields. rewrite (lookup_map _ cs c C), V. reflexivity.
Qed.

Lemma forall2_map {A B} (P : A -> B -> Prop) (f : A -> B) l : (forall x, In x l -> P x (f x)) -> Forall2 P l (map f l).
Proof.
  induction l as [|x l IH]; intros H; cbn; constructor; [apply H; left; reflexivity|].
  apply IH. intros y Y. apply H. right. exact Y.
Qed.

Theorem columns_ok digits q db t f cs : q_from q = [t] -> cs <> [] -> q_targets q = columns cs ->
  accepts (q_where q) f (collection db t) -> let found := filter f (collection db t) in
  GroupSpec.plain cs found -> (forall d c, In d found -> In c cs -> field d c <> None) -> all_different cs found ->
  exists rows, select_rows digits q db = Ok rows /\ Forall2 (row_of cs) found rows.
Proof.
  intros F NE T A found P HF DI.
  assert (TT : transform_targets digits (q_targets q) no_params = Ok (map (fun c => GField c c) cs, no_params)).
  { rewrite T, <- (app_nil_r (columns cs)), targets_columns. cbn. rewrite app_nil_r. reflexivity. }
  rewrite (rows_found digits q db t _ f F TT A). fold found.
  assert (G : run_group (map (fun c => GField c c) cs) found =
              Ok (map (fun d => {| did := 0%N; fields := key_fields cs d |}) found)).
  { unfold run_group.
    assert (NN : forall (X Y : res (list doc)), match map (fun c => GField c c) cs with [] => X | _ => Y end = Y)
      by (intros X Y; destruct cs; [congruence|reflexivity]).
    rewrite NN. pose proof (parts_columns cs []) as E. rewrite app_nil_r in E. rewrite E. cbn [group_parts rbind].
    rewrite app_nil_r, !map_map. cbn [fst snd]. rewrite map_id, rows_keys. f_equal.
    destruct (group_ok cs found P) as [_ E2]. cbn zeta in E2. rewrite (has_all cs found HF) in E2.
    rewrite (leaders_different cs found DI) in E2.
    rewrite <- (map_map fst (fun kv => {| did := 0%N; fields := combine cs kv |})), E2, map_map.
    apply map_ext. intros d. unfold kv_of. rewrite combine_map. reflexivity. }
  eexists. split; [exact G|]. apply forall2_map. intros d D. apply row_keys. intros c C.
  pose proof (HF d c D C) as N. pose proof (plain_not_nest cs found d c P D C) as N2.
  destruct (field d c) as [v|]; [|congruence]. exists v. split; [reflexivity|congruence].
Qed.

(** ** Columns with other names *)
Lemma targets_aliased digits cas st :
  transform_targets digits (aliased cas) st = Ok (map (fun ca => GField (snd ca) (fst ca)) cas, st).
Proof.
  induction cas as [|[c a] cas IH]; [reflexivity|]. unfold aliased in *. cbn [map transform_targets]. cbn [rbind].
  rewrite IH. reflexivity.
Qed.
Lemma parts_aliased cas : group_parts (map (fun ca => GField (snd ca) (fst ca)) cas) = Ok (map (fun ca => (snd ca, fst ca)) cas, []).
Proof. induction cas as [|[c a] cas IH]; [reflexivity|]. cbn [map group_parts]. rewrite IH. reflexivity. Qed.
Lemma lookup_aliased {B} (f : list byte -> B) (cas : list (list byte * list byte)) c a : NoDup (map snd cas) -> In (c, a) cas ->
  lookup beqb a (combine (map snd cas) (map f (map fst cas))) = Some (f c).
Proof.
  induction cas as [|[c' a'] cas IH]; [intros _ []|]. cbn [map combine fst snd]. intros N I. inversion N as [|? ? Ni N']. subst.
  cbn [lookup]. destruct I as [E|I].
  - injection E as -> ->. rewrite (proj2 (beqb_eq a a) eq_refl). reflexivity.
  - destruct (beqb a a') eqn:E; [|exact (IH N' I)]. apply beqb_eq in E. subst a'. exfalso. apply Ni.
    change a with (snd (c, a)). now apply in_map.
Qed.
Lemma combine_fst {A B} (l : list A) (m : list B) : length l = length m -> map fst (combine l m) = l.
Proof.
  revert m. induction l as [|x l IH]; intros [|y m] L; try discriminate; [reflexivity|]. cbn. f_equal. apply IH. cbn in L. congruence.
Qed.
Theorem aliased_ok digits q db t f cas : q_from q = [t] -> cas <> [] -> NoDup (map snd cas) -> q_targets q = aliased cas ->
  accepts (q_where q) f (collection db t) -> let found := filter f (collection db t) in let cs := map fst cas in
  GroupSpec.plain cs found -> (forall d c, In d found -> In c cs -> field d c <> None) -> all_different cs found ->
  exists rows, select_rows digits q db = Ok rows /\ Forall2 (aliased_row cas) found rows.
Proof.
  intros F NE ND T A found cs P HF DI.
  assert (TT : transform_targets digits (q_targets q) no_params = Ok (map (fun ca => GField (snd ca) (fst ca)) cas, no_params))
    by (rewrite T; apply targets_aliased).
  rewrite (rows_found digits q db t _ f F TT A). fold found.
  set (val := fun d c => match field d c with Some v => widen v | None => DNull end).
  assert (G : run_group (map (fun ca => GField (snd ca) (fst ca)) cas) found =
              Ok (map (fun d => {| did := 0%N; fields := combine (map snd cas) (map (val d) cs) |}) found)).
  { unfold run_group.
    assert (NN : forall (X Y : res (list doc)), match map (fun ca => GField (snd ca) (fst ca)) cas with [] => X | _ => Y end = Y)
      by (intros X Y; destruct cas; [congruence|reflexivity]).
    rewrite NN, parts_aliased. cbn [rbind]. rewrite !map_map. cbn [fst snd]. fold cs. rewrite rows_keys. f_equal.
    destruct (group_ok cs found P) as [_ E2]. cbn zeta in E2. rewrite (has_all cs found HF) in E2.
    rewrite (leaders_different cs found DI) in E2.
    change (map (fun x : list byte * list byte => snd x) cas) with (map snd cas).
    change (map (fun x : list byte * list byte => fst x) cas) with cs.
    rewrite <- (map_map fst (fun kv => {| did := 0%N; fields := combine (map snd cas) kv |})), E2, map_map.
    apply map_ext. intros d. unfold kv_of. reflexivity. }
  eexists. split; [exact G|]. apply forall2_map. intros d D. split.
  - cbn [fields]. apply combine_fst. unfold cs. rewrite !map_length. reflexivity.
  - intros c a I. assert (C : In c cs) by (unfold cs; change c with (fst (c, a)); now apply in_map).
    pose proof (HF d c D C) as N. pose proof (plain_not_nest cs found d c P D C) as N2.
    destruct (field d c) as [v|] eqn:V; [|congruence]. exists v, (widen v). split; [reflexivity|]. split; [|apply same_widen; congruence].
    unfold field at 1. cbn [fields]. unfold cs. rewrite (lookup_aliased (val d) cas c a ND I). unfold val. rewrite V. reflexivity.
Qed.

(** ** A count per group *)
Lemma set_new k v fs : ~ In k (map fst fs) -> set_field k v fs = fs ++ [(k, v)].
Proof.
  induction fs as [|[k' v'] fs IH]; cbn; [reflexivity|]. intros N. destruct (beqb k k') eqn:E.
  - apply beqb_eq in E. subst. tauto.
  - f_equal. apply IH. tauto.
Qed.
Lemma lookup_end {B} k (v : B) fs : ~ In k (map fst fs) -> lookup beqb k (fs ++ [(k, v)]) = Some v.
Proof.
  induction fs as [|[k' v'] fs IH]; cbn; intros N.
  - rewrite (proj2 (beqb_eq k k) eq_refl). reflexivity.
  - destruct (beqb k k') eqn:E; [apply beqb_eq in E; subst; tauto|]. apply IH. tauto.
Qed.
Lemma lookup_front {B} k c (v x : B) fs : lookup beqb c fs = Some x -> lookup beqb c (fs ++ [(k, v)]) = Some x.
Proof. induction fs as [|[k' v'] fs IH]; cbn; [discriminate|]. destruct (beqb c k'); [tauto|exact IH]. Qed.

Definition counted_doc (cs : list (list byte)) (name : list byte) (d : doc) (n : nat) : doc :=
  {| did := 0%N; fields := key_fields cs d ++ [(name, DInt TapeModel.U64 (Z.of_nat n))] |}.

Lemma rows_count cs name fld gs : ~ In name cs -> (forall g, In g gs -> length (fst g) = length cs) ->
  group_rows cs [(str "count", name, fld)] gs =
  Ok (map (fun g => {| did := 0%N; fields := combine cs (fst g) ++ [(name, DInt TapeModel.U64 (Z.of_nat (length (snd g))))] |}) gs).
Proof.
  intros N. induction gs as [|[kv ds] r IH]; intros L; [reflexivity|]. cbn [group_rows aggregates].
  change (run_aggregate (str "count") fld ds) with (agg_count ds). unfold agg_count at 1. cbn [rbind].
  rewrite IH by (intros g G; apply L; right; exact G). cbn [rbind map fst snd].
  rewrite set_new; [reflexivity|]. intros I. apply N.
  apply in_map_iff in I. destruct I as ([a b] & <- & I). apply in_combine_l in I. exact I.
Qed.

Theorem groups_ok digits q db t f cs x : q_from q = [t] -> q_targets q = columns cs ++ [TFunc (str "count") [([], x)] None] ->
  ~ In (str "count(" ++ x ++ str ")") cs ->
  accepts (q_where q) f (collection db t) -> let found := filter f (collection db t) in
  GroupSpec.plain cs found -> (forall d c, In d found -> In c cs -> field d c <> None) ->
  exists rows, select_rows digits q db = Ok rows /\
    Forall2 (fun d row => map fst (fields row) = cs ++ [str "count(" ++ x ++ str ")"] /\
                          (forall c, In c cs -> same_field c d row) /\
                          field row (str "count(" ++ x ++ str ")") =
                            Some (DInt TapeModel.U64 (Z.of_nat (length (filter (same_keys cs d) found)))))
      (leaders cs found) rows.
Proof.
  intros F T NI A found P HF. set (name := str "count(" ++ x ++ str ")") in *.
  assert (TT : transform_targets digits (q_targets q) no_params =
               Ok (map (fun c => GField c c) cs ++ [GAgg (str "count") name x], no_params)).
  { rewrite T, targets_columns. reflexivity. }
  rewrite (rows_found digits q db t _ f F TT A). fold found.
  destruct (group_ok cs found P) as [E1 E2]. cbn zeta in E1, E2. rewrite (has_all cs found HF) in E1, E2.
  assert (G : run_group (map (fun c => GField c c) cs ++ [GAgg (str "count") name x]) found =
              Ok (map (fun d => counted_doc cs name d (length (filter (same_keys cs d) found))) (leaders cs found))).
  { unfold run_group. 
    assert (NE : forall (X Y : res (list doc)) , match map (fun c => GField c c) cs ++ [GAgg (str "count") name x] with [] => X | _ => Y end = Y)
      by (intros X Y; destruct cs; reflexivity).
    rewrite NE, parts_columns. cbn [group_parts rbind]. change (aggregate (str "count")) with true. cbn [rbind].
    rewrite app_nil_r, !map_map. cbn [fst snd]. rewrite map_id.
    rewrite (rows_count cs name x (group cs found) NI).
    2:{ intros g Gi. assert (I : In (fst g) (map fst (group cs found))) by (apply in_map, Gi). rewrite E2 in I.
        apply in_map_iff in I. destruct I as (d & <- & _). apply map_length. }
    f_equal.
    assert (Z : forall gs ls, map fst gs = map (fun d => map (fun k => match field d k with Some v => widen v | None => DNull end) cs) ls ->
              map snd gs = map (fun d => filter (same_keys cs d) found) ls ->
              map (fun g : list dval * list doc => {| did := 0%N; fields := combine cs (fst g) ++ [(name, DInt TapeModel.U64 (Z.of_nat (length (snd g))))] |}) gs =
              map (fun d => counted_doc cs name d (length (filter (same_keys cs d) found))) ls).
    { induction gs as [|g gs IH]; intros [|d ls] Q1 Q2; try discriminate; [reflexivity|].
      cbn [map] in *. injection Q1 as Q1 Q1'. injection Q2 as Q2 Q2'. rewrite (IH ls Q1' Q2'). f_equal.
      unfold counted_doc. rewrite Q1, Q2. unfold kv_of. rewrite combine_map. reflexivity. }
    apply Z; [exact E2|exact E1]. }
  eexists. split; [exact G|]. apply forall2_map. intros d D. apply leaders_in in D.
  assert (RK : row_of cs d {| did := 0%N; fields := key_fields cs d |}).
  { apply row_keys. intros c C. pose proof (HF d c D C) as N. pose proof (plain_not_nest cs found d c P D C) as N2.
    destruct (field d c) as [v|]; [|congruence]. exists v. split; [reflexivity|congruence]. }
  destruct RK as [R1 R2]. cbn [fields] in R1. split; [|split].
  - cbn [counted_doc fields]. rewrite map_app, R1. reflexivity.
  - intros c C. destruct (R2 c C) as (a & b & Fa & Fb & S). exists a, b. split; [exact Fa|]. split; [|exact S].
    unfold field. cbn [counted_doc fields]. apply lookup_front. exact Fb.
  - unfold field. cbn [counted_doc fields]. apply lookup_end. rewrite R1. exact NI.
Qed.
