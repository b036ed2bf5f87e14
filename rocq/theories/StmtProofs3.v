(** Parameters, whole entries, and which statements come back as they were. *)
From Verif Require Import Bytes Outcome MsgpackModel MsgpackProofs TapeModel TapeSpec TapeProofs DocPackModel DocPackSpec DocPackProofs StmtModel StmtSpec StmtProofs StmtProofs2.
Local Open Scope N_scope.

(** * Parameters *)
Definition pair_mp (x : N * scalar) : mp := MArr [MUint (fst x); scalar_mp (snd x)].
Definition params_mp (q : list (N * scalar)) : mp := MArr [MUint T_params; MArr (map pair_mp q)].

Lemma ser_params_mp pf p q : shows_params p q -> params_ok q -> ser_params pf p = Ok (enc (params_mp q)).
Proof.
  intros S (_ & O & _). unfold ser_params. rewrite (ser_list_all2 _ (ser_pair pf (ptape p)) pair_mp (pvals p) q S).
  - cbn [rbind]. unfold params_mp. rewrite enc2. reflexivity.
  - intros x y Hy (E & i & Ei & R). pose proof (forallb_In _ _ O y Hy) as Oy. cbn beta in Oy. apply andb_true_iff in Oy as [_ St].
    unfold ser_pair. rewrite Ei, E. rewrite (pack_scalar pf _ i (snd y) R St). cbn [rbind]. unfold pair_mp. rewrite enc2. reflexivity.
Qed.
Lemma params_wf p q : shows_params p q -> params_ok q -> wf (params_mp q) = true.
Proof.
  intros S (Sm & O & _). unfold params_mp. wf_list. apply wf_arr_map; [exact Sm|]. intros y Hy. pose proof (forallb_In _ _ O y Hy) as Oy. cbn beta in Oy. apply andb_true_iff in Oy as [I St].
  destruct (all2_In_r _ _ _ y S Hy) as (x & _ & _ & i & _ & R). unfold pair_mp. wf_list.
  change (wf (to_mp (CScalar (snd y))) = true). eapply storable_wf; [constructor; exact R|exact St].
Qed.

Section Params.
  Variable w : N -> N.
  Lemma get_params_mp q : forall p, (forall y, In y q -> exists d i, reads d i (snd y)) ->
    forallb (fun x => (fst x <? 2 ^ 16) && storable (CScalar (snd x))) q = true -> NoDup (map fst q) ->
    (forall y, In y q -> ~ In (fst y) (map fst (pvals p))) -> room (ptape p) (params_text q) ->
    exists p' vs, get_params w (map pair_mp q) p = Ok p' /\ ext (ptape p) (ptape p') /\ pvals p' = pvals p ++ vs /\
      all2 (fun x y => fst x = fst y /\ exists i, snd x = Some i /\ reads (ptape p') i (snd y)) vs (params64 q).
  Proof.
    induction q as [|[id s] q IH]; intros p R O Nd Fr Rm.
    - exists p, []. cbn. split; [reflexivity|]. split; [apply ext_refl|]. split; [symmetry; apply app_nil_r|exact I].
    - cbn [forallb fst snd] in O. apply andb_true_iff in O as [O1 O2]. apply andb_true_iff in O1 as [Oi St]. cbn [map fst] in Nd. inversion Nd as [|? ? N1 N2]; subst.
      destruct (R (id, s) (or_introl eq_refl)) as (d0 & i0 & R0). cbn [snd] in R0. unfold room in Rm. cbn [params_text snd] in Rm.
      pose proof (leaf_ok w d0 i0 (ptape p) s R0 St ltac:(unfold room; lia)) as L. destruct (leaf w (scalar_mp s) (ptape p)) as [i d'] eqn:El. destruct L as (L1 & L2 & L3).
      assert (Ev : get_value w (scalar_mp s) (ptape p) = (Some i, d')).
      { unfold get_value. unfold leaf in El. destruct (primitive w (scalar_mp s)) as [s'|] eqn:Ep; [injection El as <- <-; reflexivity|].
        exfalso. destruct s; cbn in Ep; try discriminate Ep; unfold int_mp in Ep; destruct (0 <=? z)%Z; discriminate Ep. }
      assert (Ee : emplace id (Some i) (pvals p) = pvals p ++ [(id, Some i)]).
      { unfold emplace. destruct (existsb _ _) eqn:X; [|reflexivity]. exfalso. apply existsb_exists in X as (x & Hx & Ex). apply N.eqb_eq in Ex. subst id.
        apply (Fr (fst x, s) (or_introl eq_refl)). exact (in_map fst (pvals p) x Hx). }
      destruct (IH {| ptape := d'; pvals := emplace id (Some i) (pvals p) |}) as (p' & vs & G & E1 & E2 & A); cbn [ptape pvals] in *.
      + intros y Hy. apply R. right. exact Hy.
      + exact O2.
      + exact N2.
      + intros y Hy Bad. rewrite Ee, map_app, in_app_iff in Bad. destruct Bad as [Bad|[Bad|[]]]; [exact (Fr y (or_intror Hy) Bad)|]. cbn in Bad. apply N1. rewrite Bad. apply in_map. exact Hy.
      + unfold room. cbn [ptape]. rewrite L3. lia.
      + exists p', ((id, Some i) :: vs). cbn [map get_params pair_mp fst snd via_array rbind item nth_error]. rewrite (id_of id Oi). cbn [rbind]. rewrite Ev. split; [exact G|].
        split; [eapply ext_trans; eassumption|]. split; [rewrite E2, Ee, <- app_assoc; reflexivity|]. cbn [params64 map all2 fst snd].
        split; [|exact A]. split; [reflexivity|]. exists i. split; [reflexivity|]. eapply reads_ext; eassumption.
  Qed.
  Lemma read_params_mp p q : shows_params p q -> params_ok q -> exists p', read_params w (params_mp q) = Ok p' /\ shows_params p' (params64 q).
  Proof.
    intros S (_ & O & Nd & T). unfold read_params, params_mp. cbn [via_array rbind sub_array item nth_error].
    destruct (get_params_mp q {| ptape := {| tape := []; sbuf := [] |}; pvals := [] |}) as (p' & vs & G & _ & E & A).
    - intros y Hy. destruct (all2_In_r _ _ _ y S Hy) as (x & _ & _ & i & _ & R). eauto.
    - exact O.
    - exact Nd.
    - intros y _ [].
    - unfold room. cbn. exact T.
    - exists p'. split; [exact G|]. unfold shows_params. rewrite E. exact A.
  Qed.
End Params.

Theorem entry_round_trip pf w nf crc id n v p q rest :
  crc < 2 ^ 64 -> id < 2 ^ 64 -> shows n v -> node_ok v = true -> writable v = true -> shows_params p q -> params_ok q ->
  exists bytes m n' p', ser_entry pf crc id n p = Ok bytes /\ unpack (bytes ++ rest) = Some (m, rest) /\
    read_entry w nf m = Ok (crc, id, n', p') /\ shows n' (back v) /\ shows_params p' (params64 q).
Proof.
  intros C I S O W Sp Op. set (m := MArr [MUint crc; MUint id; node_mp v; params_mp q]).
  destruct (get_node_mp w nf v n S O W (Datatypes.S (mdepth (node_mp v))) ltac:(lia)) as (n' & G & B). destruct (read_params_mp w p q Sp Op) as (p' & Gp & Bp).
  exists (enc m), m, n', p'. split; [|split; [|split; [|split; assumption]]].
  - unfold ser_entry. rewrite (ser_node_mp pf v n S O W). cbn [rbind]. rewrite (ser_params_mp pf p q Sp Op). cbn [rbind]. unfold m. rewrite enc4. reflexivity.
  - apply unpack_enc. unfold m. wf_list; try (cbn [wf]; lia); [eapply node_wf; eassumption|eapply params_wf; eassumption].
  - unfold read_entry, m. cbn [via_array rbind item nth_error via_u64]. unfold read_node. rewrite G. cbn [rbind]. rewrite Gp. reflexivity.
Qed.

(** * Which statements come back as they were *)
Lemma list_kept {A B} (k : A -> bool) (f g : A -> B) l : (forall x, In x l -> (k x = true <-> f x = g x)) -> (forallb k l = true <-> map f l = map g l).
Proof.
  intros H. rewrite forallb_forall. split.
  - intros K. apply map_ext_in. intros x Hx. apply H; auto.
  - intros M x Hx. apply H; [exact Hx|]. clear H. induction l as [|y l IH]; [destruct Hx|]. cbn in M. injection M as M1 M2. destruct Hx as [->|Hx]; auto.
Qed.
Lemma list_kept_id {A} (k : A -> bool) (f : A -> A) l : (forall x, In x l -> (k x = true <-> f x = x)) -> (forallb k l = true <-> map f l = l).
Proof. intros H. rewrite <- (map_id l) at 3. apply list_kept. exact H. Qed.
Lemma key_kept_iff k : key_kept k = true <-> back_key k = k.
Proof. destruct k as [|s|z|n]; cbn; try tauto; [destruct (0 <=? z)%Z|]; split; congruence. Qed.
Lemma key_none_iff k : key_none k = true <-> k = KNone.
Proof. destruct k; cbn; split; congruence. Qed.
Lemma is_nil_iff {A} (l : list A) : is_nil l = true <-> l = [].
Proof. destruct l; cbn; split; congruence. Qed.
Lemma coll_kept_iff c : coll_kept c = true <-> back_coll c = c.
Proof.
  destruct c as [u d s c]. unfold coll_kept, back_coll. cbn. rewrite andb_true_iff, !is_nil_iff. split; [intros [-> ->]; reflexivity|intros H; injection H as; subst; auto].
Qed.
Lemma coll_none_iff c : coll_none c = true <-> c = no_coll.
Proof.
  destruct c as [u d s c]. unfold coll_none, coll_kept, no_coll. cbn. rewrite !andb_true_iff, !is_nil_iff. split; [intros [[[-> ->] ->] ->]; reflexivity|intros H; injection H as; subst; auto].
Qed.
Lemma param_kept_iff k f p : match p with PExpr e => (k e = true <-> f e = e) | _ => True end -> (param_kept k p = true <-> back_param f p = p).
Proof.
  destruct p as [n|q|e]; cbn [param_kept back_param]; intros H.
  - split; discriminate.
  - rewrite key_kept_iff. destruct q as [|s|z|n]; cbn; try (split; congruence). destruct (0 <=? z)%Z; split; congruence.
  - rewrite H. split; congruence.
Qed.
Lemma expr_kept_iff e : expr_writable e = true -> (expr_kept e = true <-> back_expr e = e).
Proof.
  induction e as [|t kl kr v ch IH|t k ps IH|t k ps IH|o k] using expr_induction; cbn [expr_writable expr_kept back_expr]; intros W; rewrite ?Forall_forall in *.
  - discriminate W.
  - assert (L : forallb expr_kept ch = true <-> map back_expr ch = ch) by (apply list_kept_id; intros x Hx; apply IH; [exact Hx|exact (forallb_In _ _ W x Hx)]).
    change and_or_not with is_union; destruct (is_union t).
    + rewrite !andb_true_iff, !key_none_iff, N.eqb_eq, L. split; [intros [[[-> ->] ->] ->]; reflexivity|]. intros H. injection H as H1 H2 H3 H4. auto.
    + rewrite !andb_true_iff, orb_true_iff, !key_kept_iff, is_nil_iff, key_none_iff, N.eqb_eq. destruct (key_none kr) eqn:K.
      * apply key_none_iff in K. subst kr. split; [intros [[[H1 H2] H3] H4]; congruence|intros H; injection H as H1 H2; subst ch; cbn; auto].
      * split; [intros [[[H1 H2] H3] [H4|H4]]; [subst kr; discriminate K|congruence]|]. intros H. injection H as H1 H2 H3 H4. subst ch v. auto.
  - assert (L : forallb (param_kept expr_kept) ps = true <-> map (back_param back_expr) ps = ps).
    { apply list_kept_id. intros x Hx. apply param_kept_iff. specialize (IH x Hx). pose proof (forallb_In _ _ W x Hx) as Wx. destruct x; auto. }
    rewrite andb_true_iff, key_kept_iff, L. split; [intros [-> ->]; reflexivity|]. intros H. injection H as H1 H2. auto.
  - assert (L : forallb (param_kept expr_kept) ps = true <-> map (back_param back_expr) ps = ps).
    { apply list_kept_id. intros x Hx. apply param_kept_iff. specialize (IH x Hx). pose proof (forallb_In _ _ W x Hx) as Wx. destruct x; auto. }
    rewrite andb_true_iff, key_kept_iff, L. split; [intros [-> ->]; reflexivity|]. intros H. injection H as H1 H2. auto.
  - rewrite key_kept_iff. split; congruence.
Qed.
Lemma upd_kept_iff u : upd_writable u = true -> (upd_kept u = true <-> back_upd u = u).
Proof.
  induction u as [|k l IH|k s|id|t l IHl r IHr]; cbn [upd_writable upd_kept back_upd]; intros W; try discriminate W.
  - rewrite andb_true_iff, key_kept_iff, (IH W). split; [intros [-> ->]; reflexivity|intros H; injection H as H1 H2; auto].
  - rewrite key_kept_iff. split; congruence.
  - tauto.
  - apply andb_true_iff in W as [W1 W2]. rewrite andb_true_iff, (IHl W1), (IHr W2). split; [intros [-> ->]; reflexivity|intros H; injection H as H1 H2; auto].
Qed.
Lemma match_kept_iff c es : match_writable es = true -> (match_kept c es = true <-> back_coll c = c /\ back_match es = es).
Proof.
  destruct es as [|e es]; [discriminate|]. cbn [match_writable]. intros W. unfold match_kept. cbn [back_match]. rewrite andb_true_iff, coll_kept_iff. destruct es as [|e' es].
  - rewrite (expr_kept_iff e W). split; [intros [-> ->]; auto|intros [H1 H2]; injection H2 as H2; auto].
  - split; [intros [_ H]; discriminate H|intros [_ H]; discriminate H].
Qed.
Lemma kept_iff v : writable v = true -> (kept v = true <-> back v = node64 v).
Proof.
  induction v as [c ch IH|c ch tr IH|t c ch es IH|s a ch IH|docs|v Hv] using node_induction; cbn [writable]; intros W; rewrite ?Forall_forall in *.
  - cbn [kept back node64]. rewrite andb_true_iff, coll_kept_iff, (list_kept kept back node64 ch) by (intros x Hx; apply IH; [exact Hx|exact (forallb_In _ _ W x Hx)]).
    split; [intros [-> ->]; reflexivity|intros H; injection H as H1 H2; auto].
  - cbn [kept back node64]. rewrite !andb_true_iff, coll_kept_iff, (list_kept kept back node64 ch) by (intros x Hx; apply IH; [exact Hx|exact (forallb_In _ _ W x Hx)]).
    rewrite (list_kept_id (fun p => key_kept (fst p) && key_kept (snd p)) (fun p => (back_key (fst p), back_key (snd p))) tr).
    + split; [intros [[-> ->] ->]; reflexivity|intros H; injection H as H1 H2 H3; auto].
    + intros [k1 k2] _. cbn [fst snd]. rewrite andb_true_iff, !key_kept_iff. split; [intros [-> ->]; reflexivity|intros H; injection H as H1 H2; auto].
  - cbn [kept back node64]. rewrite !andb_true_iff, coll_kept_iff, is_nil_iff, (list_kept kept back node64 ch) by (intros x Hx; apply IH; [exact Hx|exact (forallb_In _ _ W x Hx)]).
    split; [intros [[-> ->] ->]; reflexivity|intros H; injection H as H1 H2 H3; auto].
  - cbn [kept back node64]. rewrite is_nil_iff. split; [intros ->; reflexivity|]. intros H. injection H as H. destruct ch; [reflexivity|discriminate H].
  - cbn [kept back node64]. tauto.
  - destruct v; cbn [plain] in Hv; try discriminate Hv; clear Hv; cbn [kept back node64 writable] in *; try discriminate W;
      rewrite ?andb_true_iff, ?coll_kept_iff, ?coll_none_iff, ?is_nil_iff.
    + split; [intros [-> ->]; reflexivity|intros H; injection H as H1 H2; auto].
    + split; [intros ->; reflexivity|intros H; injection H as H1; auto].
    + rewrite (list_kept_id key_kept back_key ks) by (intros; apply key_kept_iff). split; [intros [-> ->]; reflexivity|intros H; injection H as H1 H2; auto].
    + rewrite match_kept_iff by exact W. split; [intros [[[-> ->] [-> ->]] ->]; reflexivity|intros H; injection H as H1 H2 H3 H4 H5; auto].
    + split; [intros ->; reflexivity|intros H; injection H as H1; auto].
    + split; [intros ->; reflexivity|intros H; injection H as H1; auto].
    + split; [intros ->; reflexivity|intros H; injection H as H1; auto].
    + split; [intros ->; reflexivity|intros H; injection H as H1; auto].
    + rewrite match_kept_iff by exact W. split; [intros [-> ->]; reflexivity|intros H; injection H as H1 H2; auto].
    + rewrite (list_kept_id expr_kept back_expr es) by (intros x Hx; apply expr_kept_iff; exact (forallb_In _ _ W x Hx)). split; [intros [-> ->]; reflexivity|intros H; injection H as H1 H2; auto].
    + rewrite (list_kept_id expr_kept back_expr es) by (intros x Hx; apply expr_kept_iff; exact (forallb_In _ _ W x Hx)). split; [intros [-> ->]; reflexivity|intros H; injection H as H1 H2; auto].
    + apply andb_true_iff in W as [W1 W2]. rewrite match_kept_iff by exact W1. rewrite (list_kept_id upd_kept back_upd us) by (intros x Hx; apply upd_kept_iff; exact (forallb_In _ _ W2 x Hx)).
      split; [intros [[[[-> ->] [-> ->]] ->] ->]; reflexivity|intros H; injection H as H1 H2 H3 H4 H5 H6; auto 10].
Qed.

(** * What is on a tape is determined *)
Lemma reads_fun d i s s' : reads d i s -> reads d i s' -> s = s'.
Proof.
  intros (T & _ & G) (T' & _ & G'). rewrite T in T'. injection T' as T'.
  destruct s as [|b|k z|n|n|s], s' as [|b'|k' z'|n'|n'|s']; cbn [type_code] in T'; try discriminate T'; try reflexivity; try congruence;
    try (destruct k; discriminate T'); try (destruct k'; discriminate T').
  assert (k = k') by (destruct k, k'; try discriminate T'; reflexivity). subst k'. congruence.
Qed.
Lemma holds_fun d v : forall t v', holds d t v -> holds d t v' -> v = v'.
Proof.
  induction v as [s|gs IH|vs IH] using content_induction; intros t v' H H'.
  - inversion H; subst. inversion H'; subst. f_equal. eapply reads_fun; eassumption.
  - inversion H as [|fs g F|]; subst. inversion H' as [|fs' g' F'|]; subst. f_equal. clear H H'. revert gs g' F F' IH. induction fs as [|[i t] fs IHf]; intros gs g' F F' IH.
    + inversion F; inversion F'; reflexivity.
    + inversion F as [|i1 t1 f1 k1 v1 g1 R1 H1 F1]; subst. inversion F' as [|i2 t2 f2 k2 v2 g2 R2 H2 F2]; subst. inversion IH as [|? ? I1 I2]; subst.
      pose proof (reads_fun _ _ _ _ R1 R2) as E. injection E as <-. f_equal; [f_equal; exact (I1 _ _ H1 H2)|]. exact (IHf g1 g2 F1 F2 I2).
  - inversion H as [| |fs g F]; subst. inversion H' as [| |fs' g' F']; subst. f_equal. clear H H'. revert vs g' F F' IH. induction fs as [|t fs IHf]; intros gs g' F F' IH.
    + inversion F; inversion F'; reflexivity.
    + inversion F as [|t1 f1 v1 g1 H1 F1]; subst. inversion F' as [|t2 f2 v2 g2 H2 F2]; subst. inversion IH as [|? ? I1 I2]; subst.
      f_equal; [exact (I1 _ _ H1 H2)|]. exact (IHf g1 g2 F1 F2 I2).
Qed.
Lemma all2_fun {A B} (P : A -> B -> Prop) l : forall m m', (forall x y y', In y m -> P x y -> P x y' -> y = y') -> all2 P l m -> all2 P l m' -> m = m'.
Proof.
  induction l as [|x l IH]; intros [|y m] [|y' m'] F; cbn [all2]; try tauto. intros [H1 H2] [H1' H2']. f_equal; [eapply F; eauto; left; reflexivity|].
  apply IH; auto. intros. eapply F; eauto. right; assumption.
Qed.
Lemma shows_fun v : forall n v', shows n v -> shows n v' -> v = v'.
Proof.
  induction v as [c ch IH|c ch tr IH|t c ch es IH|s a ch IH|docs|v Hv] using node_induction; intros n v' S S'; rewrite ?Forall_forall in *.
  - destruct n; cbn [shows plain] in S; try discriminate S. destruct S as [-> S]. destruct v'; cbn [shows plain] in S'; try discriminate S'. destruct S' as [<- S'].
    f_equal. eapply all2_fun; [|exact S|exact S']. intros x y y' Hy. exact (IH y Hy x y').
  - destruct n; cbn [shows plain] in S; try discriminate S. destruct S as (-> & -> & S). destruct v'; cbn [shows plain] in S'; try discriminate S'. destruct S' as (<- & <- & S').
    f_equal. eapply all2_fun; [|exact S|exact S']. intros x y y' Hy. exact (IH y Hy x y').
  - destruct n; cbn [shows plain] in S; try discriminate S. destruct S as (-> & -> & -> & S). destruct v'; cbn [shows plain] in S'; try discriminate S'. destruct S' as (<- & <- & <- & S').
    f_equal. eapply all2_fun; [|exact S|exact S']. intros x y y' Hy. exact (IH y Hy x y').
  - destruct n; cbn [shows plain] in S; try discriminate S. destruct S as (-> & -> & S). destruct v'; cbn [shows plain] in S'; try discriminate S'. destruct S' as (<- & <- & S').
    f_equal. eapply all2_fun; [|exact S|exact S']. intros x y y' Hy. exact (IH y Hy x y').
  - destruct n; cbn [shows plain] in S; try discriminate S. destruct v'; cbn [shows plain] in S'; try discriminate S'.
    f_equal. eapply all2_fun; [|exact S|exact S']. intros x y y' _ H H'. exact (holds_fun _ _ _ _ H H').
  - destruct v; cbn [plain] in Hv; try discriminate Hv; destruct n; cbn [shows plain] in S; try discriminate S; try contradiction; destruct v'; cbn [shows plain] in S'; try discriminate S'; try contradiction; congruence.
Qed.

Theorem entry_kept pf w nf crc id n v p q rest :
  crc < 2 ^ 64 -> id < 2 ^ 64 -> shows n v -> node_ok v = true -> writable v = true -> shows_params p q -> params_ok q ->
  exists bytes m n' p', ser_entry pf crc id n p = Ok bytes /\ unpack (bytes ++ rest) = Some (m, rest) /\
    read_entry w nf m = Ok (crc, id, n', p') /\ shows_params p' (params64 q) /\ (shows n' (node64 v) <-> kept v = true).
Proof.
  intros C I S O W Sp Op. destruct (entry_round_trip pf w nf crc id n v p q rest C I S O W Sp Op) as (b & m & n' & p' & H1 & H2 & H3 & H4 & H5).
  exists b, m, n', p'. repeat split; auto; rewrite (kept_iff v W).
  - intros H. exact (shows_fun _ _ _ H4 H).
  - intros <-. exact H4.
Qed.
Theorem entry_unwritable pf crc id n v p : shows n v -> writable v = false -> exists e, ser_entry pf crc id n p = Err e.
Proof. intros S W. destruct (ser_node_err pf v n S W) as [e E]. exists e. unfold ser_entry. rewrite E. reflexivity. Qed.
