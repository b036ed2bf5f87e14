(** Reading statements from the log. *)
From Verif Require Import Bytes Outcome MsgpackModel MsgpackProofs TapeModel TapeSpec TapeProofs DocPackModel DocPackSpec DocPackProofs StmtModel StmtSpec StmtProofs.
Local Open Scope N_scope.

(** * What is written is within the format *)
Lemma wf_arr l : small l = true -> (forall x, In x l -> wf x = true) -> wf (MArr l) = true.
Proof. intros S H. cbn [wf]. unfold small in S. rewrite S. cbn [andb]. apply forallb_forall. exact H. Qed.
Lemma wf_arr_map {A} (g : A -> mp) l : small l = true -> (forall x, In x l -> wf (g x) = true) -> wf (MArr (map g l)) = true.
Proof.
  intros S H. apply wf_arr; [unfold small in *; rewrite map_length; exact S|]. intros y Hy. apply in_map_iff in Hy as (x & <- & Hx). auto.
Qed.
Lemma wf_u16 n : n <? 2 ^ 16 = true -> wf (MUint n) = true. Proof. cbn [wf]. intros H. lia. Qed.
Lemma wf_u8 n : n <? 2 ^ 8 = true -> wf (MUint n) = true. Proof. cbn [wf]. intros H. lia. Qed.
Lemma key_wf k : key_ok k = true -> wf (key_mp k) = true.
Proof. destruct k; cbn [key_ok key_mp]; intros H; auto; [apply (int_wf I32); [discriminate|exact H]|cbn [wf]; lia]. Qed.
Lemma coll_wf c : coll_ok c = true -> wf (coll_mp c) = true.
Proof. unfold coll_ok. intros H. apply andb_true_iff in H as [H1 H2]. apply wf_arr; [reflexivity|]. intros x [<-|[<-|[]]]; assumption. Qed.
Ltac in_list := let x := fresh "x" in let H := fresh "H" in intros x H; repeat (destruct H as [<-|H]; [|]); try contradiction H.
Ltac wf_list := apply wf_arr; [reflexivity|in_list]; try reflexivity; auto using wf_u16, wf_u8, key_wf, coll_wf.
Lemma expr_wf e : expr_ok e = true -> wf (expr_mp e) = true.
Proof.
  induction e as [|t kl kr v ch IH|t k ps IH|t k ps IH|o k] using expr_induction; cbn [expr_ok expr_mp]; intros O; rewrite ?Forall_forall in *; [reflexivity| | | |]; split_ok O.
  - wf_list. apply wf_arr_map; [assumption|]. intros x Hx. apply IH; [exact Hx|]. exact (forallb_In _ _ O0 x Hx).
  - wf_list. apply wf_arr_map; [assumption|]. intros x Hx. specialize (IH x Hx). pose proof (forallb_In _ _ O0 x Hx) as Ox. destruct x; cbn [param_mp param_ok] in *; auto using wf_u16, key_wf.
  - wf_list. apply wf_arr_map; [assumption|]. intros x Hx. specialize (IH x Hx). pose proof (forallb_In _ _ O0 x Hx) as Ox. destruct x; cbn [param_mp param_ok] in *; auto using wf_u16, key_wf.
  - wf_list. apply (int_wf I8); [discriminate|exact O].
Qed.
Lemma upd_wf u : upd_ok u = true -> wf (upd_mp u) = true.
Proof.
  induction u as [|k l IH|k s|id|t l IHl r IHr]; cbn [upd_ok upd_mp]; intros O; [reflexivity| | | |]; split_ok O; wf_list. cbn [wf]. lia.
Qed.
Lemma match_wf c es : coll_ok c = true -> forallb expr_ok es = true -> wf (match_mp c es) = true.
Proof. intros C E. destruct es as [|e es]; [reflexivity|]. cbn [forallb] in E. apply andb_true_iff in E as [E _]. cbn [match_mp]. wf_list. apply expr_wf; exact E. Qed.
Lemma limit_wf c z : coll_ok c = true -> fits I32 z = true -> wf (limit_mp c z) = true.
Proof. intros C E. unfold limit_mp. wf_list. apply (int_wf I32); [discriminate|exact E]. Qed.
Lemma node_wf v : forall n, shows n v -> node_ok v = true -> wf (node_mp v) = true.
Proof.
  induction v as [c ch IH|c ch tr IH|t c ch es IH|s a ch IH|docs|v Hv] using node_induction; intros n S O; rewrite ?Forall_forall in *.
  - destruct n; cbn [shows plain] in S; try discriminate S. destruct S as [-> S]. cbn [node_mp node_ok] in *. split_ok O. wf_list.
    apply wf_arr_map; [assumption|]. intros x Hx. destruct (all2_In_r _ _ _ x S Hx) as (y & _ & Sy). eapply IH; [exact Hx|exact Sy|]. eapply forallb_In; eassumption.
  - destruct n; cbn [shows plain] in S; try discriminate S. destruct S as (-> & -> & S). cbn [node_mp node_ok] in *. split_ok O. wf_list.
    + apply wf_arr_map; [assumption|]. intros x Hx. destruct (all2_In_r _ _ _ x S Hx) as (y & _ & Sy). eapply IH; [exact Hx|exact Sy|]. eapply forallb_In; eassumption.
    + apply wf_arr_map; [assumption|]. intros p Hp. pose proof (forallb_In _ _ O0 p Hp) as Op. cbn in Op. apply andb_true_iff in Op as [O4 O5]. wf_list.
  - destruct n; cbn [shows plain] in S; try discriminate S. destruct S as (-> & -> & -> & S). cbn [node_mp node_ok] in *. split_ok O. wf_list.
    apply wf_arr_map; [assumption|]. intros x Hx. destruct (all2_In_r _ _ _ x S Hx) as (y & _ & Sy). eapply IH; [exact Hx|exact Sy|]. eapply forallb_In; eassumption.
  - cbn [node_mp node_ok] in *. split_ok O. wf_list. apply wf_arr_map; [assumption|]. intros x Hx. apply wf_u16. exact (forallb_In _ _ O2 x Hx).
  - destruct n; cbn [shows plain] in S; try discriminate S. cbn [node_mp node_ok] in *. split_ok O. wf_list.
    apply wf_arr_map; [assumption|]. intros x Hx. destruct (all2_In_r _ _ _ x S Hx) as (y & _ & Sy). cbn in Sy. eapply storable_wf; [exact Sy|].
    pose proof (forallb_In _ _ O0 x Hx) as Ox. destruct x; cbn [doc_ok] in Ox; try discriminate Ox. apply andb_true_iff in Ox. apply Ox.
  - destruct v; cbn [plain] in Hv; try discriminate Hv; clear Hv S; cbn [node_mp node_ok] in *; try reflexivity; split_ok O; try (wf_list; fail).
    + wf_list. apply wf_arr_map; [assumption|]. intros x Hx. apply key_wf. eapply forallb_In; eassumption.
    + wf_list. wf_list; [apply match_wf|apply limit_wf]; assumption.
    + apply limit_wf; assumption.
    + apply match_wf; assumption.
    + wf_list. apply wf_arr_map; [assumption|]. intros x Hx. apply expr_wf. eapply forallb_In; eassumption.
    + wf_list. apply wf_arr_map; [assumption|]. intros x Hx. apply expr_wf. eapply forallb_In; eassumption.
    + wf_list; [wf_list; [apply match_wf|apply limit_wf]; assumption|].
      apply wf_arr_map; [assumption|]. intros x Hx. apply upd_wf. eapply forallb_In; eassumption.
Qed.

(** * Reading *)
Lemma mdepth_in x l : In x l -> (mdepth x < mdepth (MArr l))%nat.
Proof. cbn [mdepth]. induction l as [|y l IH]; [intros []|]. cbn [fold_right]. intros [->|H]; [lia|]. specialize (IH H). lia. Qed.
Lemma read_all_map {A B} (f : mp -> res B) (g : A -> mp) (h : A -> B) l : (forall x, In x l -> f (g x) = Ok (h x)) -> read_all f (map g l) = Ok (map h l).
Proof.
  induction l as [|x l IH]; intros H; [reflexivity|]. cbn [map read_all]. rewrite (H x) by (left; reflexivity). cbn [rbind].
  rewrite IH by (intros y Hy; apply H; right; exact Hy). reflexivity.
Qed.
Lemma read_all_ex {A B C} (P : B -> C -> Prop) (f : mp -> res B) (g : A -> mp) (h : A -> C) l :
  (forall x, In x l -> exists y, f (g x) = Ok y /\ P y (h x)) -> exists ys, read_all f (map g l) = Ok ys /\ all2 P ys (map h l).
Proof.
  induction l as [|x l IH]; intros H; [exists []; split; [reflexivity|exact I]|]. destruct (H x (or_introl eq_refl)) as (y & Ey & Py).
  destruct IH as (ys & Eys & Pys); [intros z Hz; apply H; right; exact Hz|]. exists (y :: ys). cbn [map read_all]. rewrite Ey. cbn [rbind]. rewrite Eys. split; [reflexivity|split; assumption].
Qed.
Lemma item_at l i m : nth_error l i = Some m -> item l i = Ok m. Proof. unfold item. intros ->. reflexivity. Qed.
Lemma u8_at l i t : nth_error l i = Some (MUint t) -> t <? 2 ^ 8 = true -> get_u8 l i = Ok t.
Proof. intros H L. unfold get_u8. rewrite (item_at _ _ _ H). cbn [rbind via_u64]. rewrite N.mod_small by lia. reflexivity. Qed.
Lemma id_of n : n <? 2 ^ 16 = true -> get_id (MUint n) = Ok n.
Proof. intros L. unfold get_id. cbn [rbind via_u64]. rewrite N.mod_small by lia. reflexivity. Qed.

Lemma via_int z : fits I64 z = true -> via_i64 (int_mp z) = Ok z.
Proof.
  intros F. unfold via_i64. assert (via_u64 (int_mp z) = Ok (pattern I64 z)) as ->; [|cbn [rbind]; f_equal; exact (cast_ok I64 z F)].
  apply fits_iff in F. cbn in F. unfold pattern. cbn [bits]. change (2 ^ Z.of_N 64)%Z with 18446744073709551616%Z.
  unfold int_mp. destruct (Z.leb_spec 0 z); cbn [via_u64]; f_equal.
  - rewrite Z.mod_small by lia. reflexivity.
  - change (2 ^ 64) with 18446744073709551616. replace (z mod 18446744073709551616)%Z with (z + 18446744073709551616)%Z; [lia|]. symmetry. rewrite <- (Z.mod_add z 1) by lia. apply Z.mod_small. lia.
Qed.
Lemma get_key_mp k : key_ok k = true -> get_key (key_mp k) = back_key k.
Proof.
  destruct k as [|s|z|n]; cbn [key_ok key_mp back_key]; intros O; try reflexivity.
  - pose proof O as F. apply fits_iff in F. cbn in F. unfold int_mp. destruct (Z.leb_spec 0 z) as [L|L]; cbn [get_key]; f_equal.
    + rewrite <- (cast_ok I32 z O) at 2. unfold cast. apply of_pattern_mod. unfold pattern. cbn [bits]. rewrite Z.mod_small by (change (2 ^ Z.of_N 32)%Z with 4294967296%Z; lia). reflexivity.
    + change (2 ^ 32)%Z with 4294967296%Z. change (2 ^ 64) with 18446744073709551616. change (2 ^ 32) with 4294967296.
      replace (18446744073709551616 - 1 - Z.to_N (- z - 1)) with (Z.to_N (z + 4294967296) + 4294967295 * 4294967296) by lia. rewrite N.mod_add by lia. apply N.mod_small. lia.
  - cbn [get_key]. f_equal. unfold of_pattern. cbn [signed bits]. rewrite N.mod_small by lia. cbn [andb]. change (imax I32) with 2147483647%Z. change (2 ^ 31) with 2147483648. change (2 ^ Z.of_N 32)%Z with (2 ^ 32)%Z.
    destruct (N.ltb_spec n 2147483648), (Z.ltb_spec 2147483647 (Z.of_N n)); lia.
Qed.
Lemma key_at_mp l i k : nth_error l i = Some (key_mp k) -> key_ok k = true -> key_at l i = Ok (back_key k).
Proof. intros H O. unfold key_at. rewrite (item_at _ _ _ H). cbn [rbind]. rewrite get_key_mp by exact O. reflexivity. Qed.
Lemma coll_at l i c : nth_error l i = Some (coll_mp c) -> get_coll l i = Ok (back_coll c).
Proof. intros H. unfold get_coll, sub_array. rewrite (item_at _ _ _ H). reflexivity. Qed.
Lemma list_at {B} (f : mp -> res B) l i m : nth_error l i = Some (MArr m) -> read_list f l i = read_all f m.
Proof. intros H. unfold read_list, sub_array. rewrite (item_at _ _ _ H). reflexivity. Qed.
Lemma back_param_mp f g h p : key_ok (match p with PKey k => k | _ => KNone end) = true -> match p with PId n => n <? 2 ^ 16 = true | PExpr e => (exists l, g e = MArr l) /\ f (g e) = Ok (h e) | _ => True end ->
  get_param f (param_mp g p) = Ok (back_param h p).
Proof.
  destruct p as [n|k|e]; cbn [param_mp]; intros O H.
  - cbn [get_param get_key back_param]. do 3 f_equal. unfold of_pattern. cbn [signed bits andb]. rewrite N.mod_small by lia. change (imax I32) with 2147483647%Z. destruct (Z.ltb_spec 2147483647 (Z.of_N n)); lia.
  - pose proof (get_key_mp k O) as G. destruct k as [|s|z|n]; cbn [key_mp back_param] in *; try (cbn [get_param]; rewrite G; reflexivity).
    unfold int_mp in *. cbn [back_key] in G. destruct (Z.leb_spec 0 z) as [L|L]; [cbn [get_param]; rewrite G; reflexivity|].
    cbn [get_param]. unfold get_id. cbn [via_u64 rbind]. do 2 f_equal. cbn [key_ok] in O. apply fits_iff in O. cbn in O.
    apply N2Z.inj. rewrite N2Z.inj_mod, Z2N.id by (apply Z.mod_pos_bound; lia). change (Z.of_N (2 ^ 16)) with (2 ^ 16)%Z.
    rewrite N2Z.inj_sub by (change (2 ^ 64) with 18446744073709551616; lia). rewrite Z2N.id by lia. change (Z.of_N (2 ^ 64 - 1)) with (2 ^ 64 - 1)%Z.
    replace (2 ^ 64 - 1 - (- z - 1))%Z with (z + 2 ^ 48 * 2 ^ 16)%Z by lia. apply Z.mod_add. lia.
  - destruct H as ((l & E) & H). rewrite E in *. cbn [get_param]. rewrite H. reflexivity.
Qed.

Lemma expr_mp_arr e : expr_writable e = true -> exists l, expr_mp e = MArr l.
Proof. destruct e; [discriminate| | | |]; intros _; eexists; reflexivity. Qed.
Lemma back_expr_not_null e : expr_writable e = true -> back_expr e <> ENull.
Proof. destruct e; cbn; try discriminate. intros _. change and_or_not with is_union; destruct (is_union t); [discriminate|]. destruct (key_none kr); discriminate. Qed.
Lemma back_none k : key_none k = false -> back_key k <> KNone.
Proof. destruct k; try discriminate. intros _. cbn [back_key]. destruct (0 <=? z)%Z; discriminate. Qed.

Lemma get_expr_mp e : expr_ok e = true -> expr_writable e = true -> forall f, (mdepth (expr_mp e) < f)%nat -> get_expr f (expr_mp e) = Ok (back_expr e).
Proof.
  induction e as [|t kl kr v ch IH|t k ps IH|t k ps IH|o k] using expr_induction; cbn [expr_ok expr_writable expr_mp]; intros O W f Hf; rewrite ?Forall_forall in *; [discriminate W| | | |]; split_ok O;
    (destruct f as [|f]; [lia|]); cbn [get_expr via_array rbind]; unfold current_type;
    (erewrite (u8_at _ 0) by reflexivity); cbn [rbind T_compare T_agg_expr T_scalar T_sort_expr N.eqb Pos.eqb].
  - erewrite (u8_at _ 1 t) by first [reflexivity|assumption|lia]. cbn [rbind]. erewrite (key_at_mp _ 2 kl) by first [reflexivity|assumption|lia]. cbn [rbind]. erewrite (key_at_mp _ 3 kr) by first [reflexivity|assumption|lia]. cbn [rbind item nth_error]. rewrite (id_of v O2). cbn [rbind].
    erewrite (list_at _ _ 5 _) by first [reflexivity|assumption|lia]. rewrite (read_all_map (get_expr f) expr_mp back_expr).
    + cbn [rbind back_expr]. change and_or_not with is_union; destruct (is_union t); [reflexivity|]. destruct (key_none kr) eqn:K; [destruct kr; try discriminate K; reflexivity|].
      pose proof (back_none kr K). destruct (back_key kr); congruence.
    + intros x Hx. apply IH; try assumption; [exact (forallb_In _ _ O0 x Hx)|exact (forallb_In _ _ W x Hx)|].
      pose proof (mdepth_in (expr_mp x) _ (in_map expr_mp ch x Hx)). pose proof (mdepth_in (MArr (map expr_mp ch)) [MUint 17; MUint t; key_mp kl; key_mp kr; MUint v; MArr (map expr_mp ch)] ltac:(cbn; tauto)). change T_compare with 17 in Hf. lia.
  - erewrite (u8_at _ 1 t) by first [reflexivity|assumption|lia]. cbn [rbind]. erewrite (key_at_mp _ 2 k) by first [reflexivity|assumption|lia]. cbn [rbind]. erewrite (list_at _ _ 3 _) by first [reflexivity|assumption|lia].
    rewrite (read_all_map _ (param_mp expr_mp) (back_param back_expr)); [reflexivity|]. intros x Hx. pose proof (forallb_In _ _ O0 x Hx) as Ox. pose proof (forallb_In _ _ W x Hx) as Wx. specialize (IH x Hx).
    apply back_param_mp; destruct x as [n|k'|e]; cbn [param_ok param_writable] in *; auto. split; [apply expr_mp_arr; exact Wx|]. apply IH; [exact Ox|exact Wx|].
    pose proof (mdepth_in (expr_mp e) _ (in_map (param_mp expr_mp) ps (PExpr e) Hx)). pose proof (mdepth_in (MArr (map (param_mp expr_mp) ps)) [MUint T_agg_expr; MUint t; key_mp k; MArr (map (param_mp expr_mp) ps)] ltac:(cbn; tauto)). lia.
  - erewrite (u8_at _ 1 t) by first [reflexivity|assumption|lia]. cbn [rbind]. erewrite (key_at_mp _ 2 k) by first [reflexivity|assumption|lia]. cbn [rbind]. erewrite (list_at _ _ 3 _) by first [reflexivity|assumption|lia].
    rewrite (read_all_map _ (param_mp expr_mp) (back_param back_expr)); [reflexivity|]. intros x Hx. pose proof (forallb_In _ _ O0 x Hx) as Ox. pose proof (forallb_In _ _ W x Hx) as Wx. specialize (IH x Hx).
    apply back_param_mp; destruct x as [n|k'|e]; cbn [param_ok param_writable] in *; auto. split; [apply expr_mp_arr; exact Wx|]. apply IH; [exact Ox|exact Wx|].
    pose proof (mdepth_in (expr_mp e) _ (in_map (param_mp expr_mp) ps (PExpr e) Hx)). pose proof (mdepth_in (MArr (map (param_mp expr_mp) ps)) [MUint T_scalar; MUint t; key_mp k; MArr (map (param_mp expr_mp) ps)] ltac:(cbn; tauto)). lia.
  - unfold get_order. cbn [item nth_error rbind]. rewrite via_int by (apply fits_iff; apply fits_iff in O; cbn in O |- *; lia). cbn [rbind]. erewrite (key_at_mp _ 2 k) by first [reflexivity|assumption|lia]. cbn [rbind back_expr]. rewrite cast_ok by exact O. reflexivity.
Qed.
Lemma get_upd_mp u : upd_ok u = true -> upd_writable u = true -> forall f, (mdepth (upd_mp u) < f)%nat -> get_upd f (upd_mp u) = Ok (back_upd u).
Proof.
  induction u as [|k l IH|k s|id|t l IHl r IHr]; cbn [upd_ok upd_writable upd_mp]; intros O W f Hf; [discriminate W| | | |]; split_ok O; (destruct f as [|f]; [lia|]); cbn [get_upd via_array rbind].
  - erewrite (u8_at _ 1 0) by first [reflexivity|assumption|lia]. cbn [rbind N.eqb]. erewrite (key_at_mp _ 2 k) by first [reflexivity|assumption|lia]. cbn [rbind item nth_error]. rewrite IH; auto.
    pose proof (mdepth_in (upd_mp l) [MUint T_upd_expr; MUint 0; key_mp k; upd_mp l] ltac:(cbn; tauto)). lia.
  - erewrite (u8_at _ 1 1) by first [reflexivity|assumption|lia]. cbn [rbind N.eqb Pos.eqb]. erewrite (key_at_mp _ 2 k) by first [reflexivity|assumption|lia]. cbn [rbind]. erewrite (u8_at _ 3 s) by first [reflexivity|assumption|lia]. reflexivity.
  - erewrite (u8_at _ 1 2) by first [reflexivity|assumption|lia]. cbn [rbind N.eqb Pos.eqb item nth_error]. rewrite (id_of id O). reflexivity.
  - apply andb_true_iff in W as [W1 W2]. erewrite (u8_at _ 1 t) by first [reflexivity|assumption|lia]. cbn [rbind].
    destruct (N.eqb_spec t 0); [lia|]. destruct (N.eqb_spec t 1); [lia|]. destruct (N.eqb_spec t 2); [lia|]. rewrite O2. cbn [item nth_error rbind].
    pose proof (mdepth_in (upd_mp l) [MUint T_upd_expr; MUint t; upd_mp l; upd_mp r] ltac:(cbn; tauto)). pose proof (mdepth_in (upd_mp r) [MUint T_upd_expr; MUint t; upd_mp l; upd_mp r] ltac:(cbn; tauto)).
    rewrite IHl by (auto; lia). cbn [rbind]. rewrite IHr by (auto; lia). reflexivity.
Qed.
Lemma match_read c es l : coll_ok c = true -> forallb expr_ok es = true -> match_writable es = true -> match_mp c es = MArr l -> get_match l = Ok (back_coll c, back_match es).
Proof.
  destruct es as [|e es]; [discriminate|]. cbn [forallb match_writable match_mp back_match]. intros C O W E. apply andb_true_iff in O as [O _]. injection E as <-.
  unfold get_match. erewrite (coll_at _ 1 c) by first [reflexivity|assumption|lia]. cbn [rbind item nth_error]. unfold read_expr. rewrite get_expr_mp by (auto; lia). cbn [rbind].
  pose proof (back_expr_not_null e W). destruct (back_expr e); congruence.
Qed.
Lemma limit_read c z : fits I32 z = true -> get_limit [MUint T_limit; coll_mp c; int_mp z] = Ok (back_coll c, z).
Proof.
  intros F. unfold get_limit. erewrite (coll_at _ 1 c) by first [reflexivity|assumption|lia]. cbn [rbind item nth_error]. rewrite via_int by (apply fits_iff; apply fits_iff in F; cbn in F |- *; lia).
  cbn [rbind]. rewrite cast_ok by exact F. reflexivity.
Qed.

Section Nodes.
  Variable w : N -> N.
  Variable nf : bool.
  Lemma get_doc_mp x v : holds (fst x) (snd x) v -> doc_ok v = true -> exists y, get_doc w nf (to_mp v) = Ok y /\ holds (fst y) (snd y) (all64 v).
  Proof.
    intros H O. destruct v as [|gs|]; cbn [doc_ok] in O; try discriminate O. apply andb_true_iff in O as [St Rm]. destruct x as [d t]. cbn [fst snd] in H.
    pose proof (unpack_content w nf d (CObj gs) t {| tape := []; sbuf := [] |} H St) as U. unfold get_doc, to_document.
    destruct (build_index w nf (to_mp (CObj gs)) {| tape := []; sbuf := [] |}) as [t' d'] eqn:E. exists (d', t').
    split; [reflexivity|]. apply U. unfold room. cbn [sbuf length]. lia.
  Qed.

  Lemma get_node_mp v : forall n, shows n v -> node_ok v = true -> writable v = true -> forall f, (mdepth (node_mp v) < f)%nat ->
    exists n', get_node w nf f (node_mp v) = Ok n' /\ shows n' (back v).
  Proof.
    induction v as [c ch IH|c ch tr IH|t c ch es IH|s a ch IH|docs|v Hv] using node_induction; intros n S O W f Hf; rewrite ?Forall_forall in *.
    - destruct n; cbn [shows plain] in S; try discriminate S. destruct S as [-> S]. cbn [node_mp node_ok writable] in *. split_ok O. destruct f as [|f]; [lia|].
      destruct (read_all_ex shows (get_node w nf f) node_mp back ch) as (ys & Ey & Sy).
      { intros x Hx. destruct (all2_In_r _ _ _ x S Hx) as (y & _ & Sy). eapply IH; [exact Hx|exact Sy|exact (forallb_In _ _ O0 x Hx)|exact (forallb_In _ _ W x Hx)|].
        pose proof (mdepth_in (node_mp x) _ (in_map node_mp ch x Hx)). pose proof (mdepth_in (MArr (map node_mp ch)) [MUint T_aggregate; coll_mp c; MArr (map node_mp ch)] ltac:(cbn; tauto)). lia. }
      cbn [get_node via_array rbind]. unfold current_type. erewrite (u8_at _ 0) by reflexivity. cbn [rbind T_aggregate N.eqb].
      erewrite (coll_at _ 1 c) by first [reflexivity|assumption|lia]. cbn [rbind]. erewrite (list_at _ _ 2 _) by first [reflexivity|assumption|lia]; rewrite Ey. eexists. split; [reflexivity|]. cbn [back shows]. auto.
    - destruct n; cbn [shows plain] in S; try discriminate S. destruct S as (-> & -> & S). cbn [node_mp node_ok writable] in *. split_ok O. destruct f as [|f]; [lia|].
      destruct (read_all_ex shows (get_node w nf f) node_mp back ch) as (ys & Ey & Sy).
      { intros x Hx. destruct (all2_In_r _ _ _ x S Hx) as (y & _ & Sy). eapply IH; [exact Hx|exact Sy|exact (forallb_In _ _ O2 x Hx)|exact (forallb_In _ _ W x Hx)|].
        pose proof (mdepth_in (node_mp x) _ (in_map node_mp ch x Hx)). pose proof (mdepth_in (MArr (map node_mp ch)) [MUint T_insert; coll_mp c; MArr (map node_mp ch); MArr (map (fun p => MArr [key_mp (fst p); key_mp (snd p)]) tr)] ltac:(cbn; tauto)). lia. }
      cbn [get_node via_array rbind]. unfold current_type. erewrite (u8_at _ 0) by reflexivity. cbn [rbind T_aggregate T_create_coll T_create_db T_create_index T_data T_delete T_drop_coll T_drop_db T_drop_index T_insert N.eqb Pos.eqb].
      erewrite (coll_at _ 1 c) by first [reflexivity|assumption|lia]. cbn [rbind]. erewrite (list_at _ _ 2 _) by first [reflexivity|assumption|lia]; rewrite Ey. cbn [rbind]. erewrite (list_at _ _ 3 _) by first [reflexivity|assumption|lia].
      rewrite (read_all_map get_two _ (fun p => (back_key (fst p), back_key (snd p)))).
      + eexists. split; [reflexivity|]. cbn [back shows]. auto.
      + intros p Hp. pose proof (forallb_In _ _ O0 p Hp) as Op. cbn beta in Op. apply andb_true_iff in Op as [O4 O5]. unfold get_two. cbn [via_array rbind].
        erewrite (key_at_mp _ 0 (fst p)) by first [reflexivity|assumption|lia]. cbn [rbind]. erewrite (key_at_mp _ 1 (snd p)) by first [reflexivity|assumption|lia]. reflexivity.
    - destruct n; cbn [shows plain] in S; try discriminate S. destruct S as (-> & -> & -> & S). cbn [node_mp node_ok writable] in *. split_ok O. destruct f as [|f]; [lia|].
      destruct (read_all_ex shows (get_node w nf f) node_mp back ch) as (ys & Ey & Sy).
      { intros x Hx. destruct (all2_In_r _ _ _ x S Hx) as (y & _ & Sy). eapply IH; [exact Hx|exact Sy|exact (forallb_In _ _ O2 x Hx)|exact (forallb_In _ _ W x Hx)|].
        pose proof (mdepth_in (node_mp x) _ (in_map node_mp ch x Hx)). pose proof (mdepth_in (MArr (map node_mp ch)) [MUint T_join; MUint t; coll_mp c; MArr (map node_mp ch)] ltac:(cbn; tauto)). lia. }
      cbn [get_node via_array rbind]. unfold current_type. erewrite (u8_at _ 0) by reflexivity. cbn [rbind T_aggregate T_create_coll T_create_db T_create_index T_data T_delete T_drop_coll T_drop_db T_drop_index T_insert T_join N.eqb Pos.eqb].
      erewrite (u8_at _ 1 t) by first [reflexivity|assumption|lia]. cbn [rbind]. erewrite (coll_at _ 2 c) by first [reflexivity|assumption|lia]. cbn [rbind]. erewrite (list_at _ _ 3 _) by first [reflexivity|assumption|lia]; rewrite Ey. eexists. split; [reflexivity|]. cbn [back shows]. auto.
    - cbn [node_mp node_ok writable] in *. split_ok O. destruct f as [|f]; [lia|].
      cbn [get_node via_array rbind]. unfold current_type. erewrite (u8_at _ 0) by reflexivity.
      cbn [rbind T_aggregate T_create_coll T_create_db T_create_index T_data T_delete T_drop_coll T_drop_db T_drop_index T_insert T_join T_limit T_match T_group T_sort T_function N.eqb Pos.eqb].
      cbn [str_at item nth_error rbind via_str]. erewrite (list_at _ _ 2 _) by first [reflexivity|assumption|lia]. rewrite (read_all_map get_id MUint (fun n => n)).
      + rewrite map_id. eexists. split; [reflexivity|]. cbn [back shows all2]. auto.
      + intros x Hx. apply id_of. exact (forallb_In _ _ O2 x Hx).
    - destruct n; cbn [shows plain] in S; try discriminate S. cbn [node_mp node_ok writable] in *. split_ok O. destruct f as [|f]; [lia|].
      destruct (read_all_ex (fun y v => holds (fst y) (snd y) v) (get_doc w nf) to_mp all64 docs) as (ys & Ey & Sy).
      { intros x Hx. destruct (all2_In_r _ _ _ x S Hx) as (y & _ & Sy). eapply get_doc_mp; [exact Sy|exact (forallb_In _ _ O0 x Hx)]. }
      cbn [get_node via_array rbind]. unfold current_type. erewrite (u8_at _ 0) by reflexivity.
      cbn [rbind T_aggregate T_create_coll T_create_db T_create_index T_data N.eqb Pos.eqb].
      erewrite (list_at _ _ 1 _) by first [reflexivity|assumption|lia]; rewrite Ey. eexists. split; [reflexivity|]. exact Sy.
    - destruct v; cbn [plain] in Hv; try discriminate Hv; clear Hv S; cbn [node_mp node_ok writable] in *; try discriminate W; split_ok O; (destruct f as [|f]; [lia|]).
      + cbn [get_node via_array rbind]. unfold current_type. erewrite (u8_at _ 0) by reflexivity. cbn [rbind T_aggregate T_create_coll N.eqb Pos.eqb].
        erewrite (coll_at _ 1 c) by first [reflexivity|assumption|lia]. eexists. split; reflexivity.
      + cbn [get_node via_array rbind]. unfold current_type. erewrite (u8_at _ 0) by reflexivity. cbn [rbind T_aggregate T_create_coll T_create_db N.eqb Pos.eqb].
        erewrite (coll_at _ 1 c) by first [reflexivity|assumption|lia]. eexists. split; reflexivity.
      + cbn [get_node via_array rbind]. unfold current_type. erewrite (u8_at _ 0) by reflexivity. cbn [rbind T_aggregate T_create_coll T_create_db T_create_index N.eqb Pos.eqb].
        erewrite (u8_at _ 1 t) by first [reflexivity|assumption|lia]. cbn [rbind]. erewrite (coll_at _ 2 c) by first [reflexivity|assumption|lia]. cbn [rbind str_at item nth_error via_str]. erewrite (list_at _ _ 4 _) by first [reflexivity|assumption|lia].
        rewrite (read_all_map (fun m => Ok (get_key m)) key_mp back_key) by (intros x Hx; rewrite get_key_mp by exact (forallb_In _ _ O0 x Hx); reflexivity). eexists. split; reflexivity.
      + destruct es as [|e es]; [discriminate W|].
        cbn [get_node via_array rbind]. unfold current_type. erewrite (u8_at _ 0) by reflexivity. cbn [rbind T_aggregate T_create_coll T_create_db T_create_index T_data T_delete N.eqb Pos.eqb].
        erewrite (coll_at _ 1 c) by first [reflexivity|assumption|lia]. cbn [rbind sub_array item nth_error via_array match_mp]. erewrite (match_read mc (e :: es)) by (try eassumption; reflexivity).
        cbn [rbind limit_mp via_array]. rewrite limit_read by assumption. eexists. split; reflexivity.
      + cbn [get_node via_array rbind]. unfold current_type. erewrite (u8_at _ 0) by reflexivity. cbn [rbind T_aggregate T_create_coll T_create_db T_create_index T_data T_delete T_drop_coll N.eqb Pos.eqb].
        erewrite (coll_at _ 1 c) by first [reflexivity|assumption|lia]. eexists. split; reflexivity.
      + cbn [get_node via_array rbind]. unfold current_type. erewrite (u8_at _ 0) by reflexivity. cbn [rbind T_aggregate T_create_coll T_create_db T_create_index T_data T_delete T_drop_coll T_drop_db N.eqb Pos.eqb].
        erewrite (coll_at _ 1 c) by first [reflexivity|assumption|lia]. eexists. split; reflexivity.
      + cbn [get_node via_array rbind]. unfold current_type. erewrite (u8_at _ 0) by reflexivity. cbn [rbind T_aggregate T_create_coll T_create_db T_create_index T_data T_delete T_drop_coll T_drop_db T_drop_index N.eqb Pos.eqb].
        erewrite (coll_at _ 1 c) by first [reflexivity|assumption|lia]. eexists. split; reflexivity.
      + unfold limit_mp. cbn [get_node via_array rbind]. unfold current_type. erewrite (u8_at _ 0) by reflexivity. cbn [rbind T_aggregate T_create_coll T_create_db T_create_index T_data T_delete T_drop_coll T_drop_db T_drop_index T_insert T_join T_limit N.eqb Pos.eqb].
        rewrite limit_read by assumption. eexists. split; reflexivity.
      + destruct es as [|e es]; [discriminate W|]. cbn [match_mp].
        cbn [get_node via_array rbind]. unfold current_type. erewrite (u8_at _ 0) by reflexivity. cbn [rbind T_aggregate T_create_coll T_create_db T_create_index T_data T_delete T_drop_coll T_drop_db T_drop_index T_insert T_join T_limit T_match N.eqb Pos.eqb].
        erewrite (match_read c (e :: es)) by (try eassumption; reflexivity). eexists. split; reflexivity.
      + cbn [get_node via_array rbind]. unfold current_type. erewrite (u8_at _ 0) by reflexivity. cbn [rbind T_aggregate T_create_coll T_create_db T_create_index T_data T_delete T_drop_coll T_drop_db T_drop_index T_insert T_join T_limit T_match T_group N.eqb Pos.eqb].
        erewrite (coll_at _ 1 c) by first [reflexivity|assumption|lia]. cbn [rbind]. erewrite (list_at _ _ 2 _) by first [reflexivity|assumption|lia].
        rewrite (read_all_map read_expr expr_mp back_expr) by (intros x Hx; unfold read_expr; apply get_expr_mp; [exact (forallb_In _ _ O0 x Hx)|exact (forallb_In _ _ W x Hx)|lia]). eexists. split; reflexivity.
      + cbn [get_node via_array rbind]. unfold current_type. erewrite (u8_at _ 0) by reflexivity. cbn [rbind T_aggregate T_create_coll T_create_db T_create_index T_data T_delete T_drop_coll T_drop_db T_drop_index T_insert T_join T_limit T_match T_group T_sort N.eqb Pos.eqb].
        erewrite (coll_at _ 1 c) by first [reflexivity|assumption|lia]. cbn [rbind]. erewrite (list_at _ _ 2 _) by first [reflexivity|assumption|lia].
        rewrite (read_all_map read_expr expr_mp back_expr) by (intros x Hx; unfold read_expr; apply get_expr_mp; [exact (forallb_In _ _ O0 x Hx)|exact (forallb_In _ _ W x Hx)|lia]). eexists. split; reflexivity.
      + apply andb_true_iff in W as [W1 W2]. destruct es as [|e es]; [discriminate W1|].
        cbn [get_node via_array rbind]. unfold current_type. erewrite (u8_at _ 0) by reflexivity. cbn [rbind T_aggregate T_create_coll T_create_db T_create_index T_data T_delete T_drop_coll T_drop_db T_drop_index T_insert T_join T_limit T_match T_group T_sort T_function T_update N.eqb Pos.eqb].
        erewrite (coll_at _ 1 c) by first [reflexivity|assumption|lia]. cbn [rbind]. erewrite (coll_at _ 2 from) by first [reflexivity|assumption|lia]. cbn [rbind sub_array item nth_error via_array match_mp]. erewrite (match_read mc (e :: es)) by (try eassumption; reflexivity).
        cbn [rbind limit_mp via_array]. rewrite limit_read by assumption. cbn [rbind]. erewrite (list_at _ _ 4 _) by first [reflexivity|assumption|lia].
        rewrite (read_all_map read_upd upd_mp back_upd) by (intros x Hx; unfold read_upd; apply get_upd_mp; [exact (forallb_In _ _ O0 x Hx)|exact (forallb_In _ _ W2 x Hx)|lia]). eexists. split; reflexivity.
  Qed.
End Nodes.
