(** Proofs about statements in the log. *)
From Verif Require Import Bytes Outcome MsgpackModel MsgpackProofs TapeModel TapeSpec TapeProofs DocPackModel DocPackSpec DocPackProofs StmtModel StmtSpec.
Local Open Scope N_scope.

(** * Induction *)
Definition param_all (P : expr -> Prop) (p : param expr) : Prop := match p with PExpr e => P e | _ => True end.
Fixpoint expr_induction (P : expr -> Prop)
  (H0 : P ENull) (H1 : forall t kl kr v ch, Forall P ch -> P (ECmp t kl kr v ch))
  (H2 : forall t k ps, Forall (param_all P) ps -> P (EAgg t k ps)) (H3 : forall t k ps, Forall (param_all P) ps -> P (EScalar t k ps))
  (H4 : forall o k, P (ESort o k)) (e : expr) : P e :=
  let rec := expr_induction P H0 H1 H2 H3 H4 in
  let one p : param_all P p := match p with PExpr e => rec e | PId _ => I | PKey _ => I end in
  match e with
  | ENull => H0
  | ECmp t kl kr v ch => H1 t kl kr v ch ((fix go l : Forall P l := match l with [] => Forall_nil _ | x :: r => Forall_cons x (expr_induction P H0 H1 H2 H3 H4 x) (go r) end) ch)
  | EAgg t k ps => H2 t k ps ((fix go l : Forall (param_all P) l := match l with [] => Forall_nil _ | x :: r =>
      Forall_cons x (match x return param_all P x with PExpr e => expr_induction P H0 H1 H2 H3 H4 e | PId _ => I | PKey _ => I end) (go r) end) ps)
  | EScalar t k ps => H3 t k ps ((fix go l : Forall (param_all P) l := match l with [] => Forall_nil _ | x :: r =>
      Forall_cons x (match x return param_all P x with PExpr e => expr_induction P H0 H1 H2 H3 H4 e | PId _ => I | PKey _ => I end) (go r) end) ps)
  | ESort o k => H4 o k
  end.

Fixpoint node_induction {A} (P : node A -> Prop)
  (Ha : forall c ch, Forall P ch -> P (NAggregate c ch)) (Hi : forall c ch tr, Forall P ch -> P (NInsert c ch tr))
  (Hj : forall t c ch es, Forall P ch -> P (NJoin t c ch es)) (Hf : forall s a ch, Forall P ch -> P (NFunction s a ch))
  (Hd : forall docs, P (NData docs)) (Ho : forall n : node A, plain (B := A) n = Some n -> P n) (n : node A) : P n :=
  let go := fix go l : Forall P l := match l with [] => Forall_nil _ | x :: r => Forall_cons x (node_induction P Ha Hi Hj Hf Hd Ho x) (go r) end in
  match n with
  | NAggregate c ch => Ha c ch (go ch)
  | NInsert c ch tr => Hi c ch tr (go ch)
  | NJoin t c ch es => Hj t c ch es (go ch)
  | NFunction s a ch => Hf s a ch (go ch)
  | NData docs => Hd docs
  | NNull => Ho NNull eq_refl | NCreateColl c l => Ho (NCreateColl c l) eq_refl | NCreateDb c => Ho (NCreateDb c) eq_refl
  | NCreateIndex t c s ks => Ho (NCreateIndex t c s ks) eq_refl | NChunk rows => Ho (NChunk rows) eq_refl
  | NDelete c f mc es lc z => Ho (NDelete c f mc es lc z) eq_refl | NDropColl c => Ho (NDropColl c) eq_refl | NDropDb c => Ho (NDropDb c) eq_refl
  | NDropIndex c s => Ho (NDropIndex c s) eq_refl | NLimit c z => Ho (NLimit c z) eq_refl | NMatch c es => Ho (NMatch c es) eq_refl
  | NGroup c es => Ho (NGroup c es) eq_refl | NSort c es => Ho (NSort c es) eq_refl
  | NUpdate c f mc es lc z us u => Ho (NUpdate c f mc es lc z us u) eq_refl
  end.

(** * The MessagePack value of a statement *)
Definition key_mp (k : key) : mp := match k with KNone => MNil | KStr s => MStr s | KInt z => int_mp z | KUint n => MUint n end.
Definition coll_mp (c : coll) : mp := MArr [MStr (database c); MStr (collection c)].
Definition param_mp (f : expr -> mp) (p : param expr) : mp := match p with PId n => MUint n | PKey k => key_mp k | PExpr e => f e end.
Fixpoint expr_mp (e : expr) : mp :=
  match e with
  | ENull => MNil
  | ECmp t kl kr v ch => MArr [MUint T_compare; MUint t; key_mp kl; key_mp kr; MUint v; MArr (map expr_mp ch)]
  | EAgg t k ps => MArr [MUint T_agg_expr; MUint t; key_mp k; MArr (map (param_mp expr_mp) ps)]
  | EScalar t k ps => MArr [MUint T_scalar; MUint t; key_mp k; MArr (map (param_mp expr_mp) ps)]
  | ESort o k => MArr [MUint T_sort_expr; int_mp o; key_mp k]
  end.
Fixpoint upd_mp (u : upd) : mp :=
  match u with
  | UNull => MNil
  | USet k l => MArr [MUint T_upd_expr; MUint 0; key_mp k; upd_mp l]
  | UGet k side => MArr [MUint T_upd_expr; MUint 1; key_mp k; MUint side]
  | UConst id => MArr [MUint T_upd_expr; MUint 2; MUint id]
  | UCalc t l r => MArr [MUint T_upd_expr; MUint t; upd_mp l; upd_mp r]
  end.
Definition match_mp (c : coll) (es : list expr) : mp :=
  match es with [] => MNil | e :: _ => MArr [MUint T_match; coll_mp c; expr_mp e] end.
Definition limit_mp (c : coll) (z : Z) : mp := MArr [MUint T_limit; coll_mp c; int_mp z].
Fixpoint node_mp (v : node content) : mp :=
  match v with
  | NNull | NChunk _ => MNil
  | NAggregate c ch => MArr [MUint T_aggregate; coll_mp c; MArr (map node_mp ch)]
  | NCreateColl c _ => MArr [MUint T_create_coll; coll_mp c]
  | NCreateDb c => MArr [MUint T_create_db; coll_mp c]
  | NCreateIndex t c s ks => MArr [MUint T_create_index; MUint t; coll_mp c; MStr s; MArr (map key_mp ks)]
  | NData vs => MArr [MUint T_data; MArr (map to_mp vs)]
  | NDelete c _ mc es lc z => MArr [MUint T_delete; coll_mp c; MArr [match_mp mc es; limit_mp lc z]]
  | NDropColl c => MArr [MUint T_drop_coll; coll_mp c]
  | NDropDb c => MArr [MUint T_drop_db; coll_mp c]
  | NDropIndex c s => MArr [MUint T_drop_index; coll_mp c; MStr s]
  | NInsert c ch tr => MArr [MUint T_insert; coll_mp c; MArr (map node_mp ch); MArr (map (fun p => MArr [key_mp (fst p); key_mp (snd p)]) tr)]
  | NJoin t c ch _ => MArr [MUint T_join; MUint t; coll_mp c; MArr (map node_mp ch)]
  | NLimit c z => limit_mp c z
  | NMatch c es => match_mp c es
  | NGroup c es => MArr [MUint T_group; coll_mp c; MArr (map expr_mp es)]
  | NSort c es => MArr [MUint T_sort; coll_mp c; MArr (map expr_mp es)]
  | NFunction s a _ => MArr [MUint T_function; MStr s; MArr (map MUint a)]
  | NUpdate c from mc es lc z us u =>
    MArr [MUint T_update; coll_mp c; coll_mp from; MArr [match_mp mc es; limit_mp lc z]; MArr (map upd_mp us); MBool u]
  end.

(** * Writing *)
Lemma pack_int_mp z : pack_int z = enc (int_mp z).
Proof. unfold pack_int, int_mp. destruct (0 <=? z)%Z; reflexivity. Qed.
Lemma ser_key_mp k : ser_key k = enc (key_mp k).
Proof. destruct k; try reflexivity. apply pack_int_mp. Qed.
Lemma enc_arr l : enc (MArr l) = arr (length l) ++ flat_map enc l.
Proof. reflexivity. Qed.
Ltac enc_list := intros; rewrite enc_arr; cbn [flat_map length]; rewrite app_nil_r; reflexivity.
Lemma enc2 a b : enc (MArr [a; b]) = arr 2 ++ enc a ++ enc b. Proof. enc_list. Qed.
Lemma enc3 a b c : enc (MArr [a; b; c]) = arr 3 ++ enc a ++ enc b ++ enc c. Proof. enc_list. Qed.
Lemma enc4 a b c d : enc (MArr [a; b; c; d]) = arr 4 ++ enc a ++ enc b ++ enc c ++ enc d. Proof. enc_list. Qed.
Lemma enc5 a b c d e : enc (MArr [a; b; c; d; e]) = arr 5 ++ enc a ++ enc b ++ enc c ++ enc d ++ enc e. Proof. enc_list. Qed.
Lemma enc6 a b c d e f : enc (MArr [a; b; c; d; e; f]) = arr 6 ++ enc a ++ enc b ++ enc c ++ enc d ++ enc e ++ enc f. Proof. enc_list. Qed.
Lemma ser_coll_mp c : ser_coll c = enc (coll_mp c).
Proof. unfold coll_mp. rewrite enc2. reflexivity. Qed.
Ltac enc_all := rewrite ?enc6, ?enc5, ?enc4, ?enc3, ?enc2, ?ser_coll_mp, ?ser_key_mp, ?pack_int_mp; rewrite <- ?app_assoc; reflexivity.
Lemma ser_list_mp {A} (f : A -> res (list byte)) (g : A -> mp) l : (forall x, In x l -> f x = Ok (enc (g x))) ->
  ser_list f l = Ok (enc (MArr (map g l))).
Proof.
  intros H. unfold ser_list. rewrite enc_arr, map_length.
  assert (ser_all f l = Ok (flat_map enc (map g l))) as ->; [|reflexivity].
  induction l as [|x l IH]; [reflexivity|]. cbn [ser_all]. rewrite (H x) by (left; reflexivity). cbn [rbind]. rewrite IH by (intros y Hy; apply H; right; exact Hy). reflexivity.
Qed.
Lemma forallb_In {A} (f : A -> bool) l : forallb f l = true -> forall x, In x l -> f x = true.
Proof. apply forallb_forall. Qed.

Lemma ser_expr_mp e : expr_writable e = true -> ser_expr e = Ok (enc (expr_mp e)).
Proof.
  induction e as [|t kl kr v ch IH|t k ps IH|t k ps IH|o k] using expr_induction; intros W; cbn [expr_writable] in W; try discriminate W; cbn [ser_expr expr_mp].
  - rewrite (ser_list_mp ser_expr expr_mp).
    + cbn [rbind]. enc_all.
    + intros x Hx. rewrite Forall_forall in IH. apply IH; [exact Hx|]. exact (forallb_In _ _ W x Hx).
  - rewrite (ser_list_mp (ser_param ser_expr) (param_mp expr_mp)).
    + cbn [rbind]. enc_all.
    + intros x Hx. rewrite Forall_forall in IH. specialize (IH x Hx). pose proof (forallb_In _ _ W x Hx) as Wx.
      destruct x; cbn [ser_param param_mp]; [reflexivity|rewrite ser_key_mp; reflexivity|apply IH; exact Wx].
  - rewrite (ser_list_mp (ser_param ser_expr) (param_mp expr_mp)).
    + cbn [rbind]. enc_all.
    + intros x Hx. rewrite Forall_forall in IH. specialize (IH x Hx). pose proof (forallb_In _ _ W x Hx) as Wx.
      destruct x; cbn [ser_param param_mp]; [reflexivity|rewrite ser_key_mp; reflexivity|apply IH; exact Wx].
  - enc_all.
Qed.
Lemma ser_upd_mp u : upd_writable u = true -> ser_upd u = Ok (enc (upd_mp u)).
Proof.
  induction u as [|k l IH|k s|id|t l IHl r IHr]; cbn [upd_writable]; intros W; try discriminate W; cbn [ser_upd upd_mp].
  - rewrite (IH W). cbn [rbind]. enc_all.
  - enc_all.
  - enc_all.
  - apply andb_true_iff in W as [W1 W2]. rewrite (IHl W1). cbn [rbind]. rewrite (IHr W2). cbn [rbind]. enc_all.
Qed.
Lemma ser_match_mp c es : match_writable es = true -> ser_match c es = Ok (enc (match_mp c es)).
Proof.
  destruct es as [|e es]; [discriminate|]. cbn [match_writable ser_match match_mp]. intros W. rewrite (ser_expr_mp e W). cbn [rbind].
  enc_all.
Qed.
Lemma ser_limit_mp c z : ser_limit c z = enc (limit_mp c z).
Proof. unfold ser_limit, limit_mp. enc_all. Qed.
Ltac enc_more := rewrite ?ser_limit_mp; enc_all.

(** Nothing is written when a pointer is null. *)
Lemma ser_list_err {A} (f : A -> res (list byte)) l x : In x l -> (exists e, f x = Err e) -> exists e, ser_list f l = Err e.
Proof.
  intros Hx [e He]. unfold ser_list. assert (exists e, ser_all f l = Err e) as [e' ->]; [|exists e'; reflexivity].
  induction l as [|y l IH]; [destruct Hx|]. cbn [ser_all]. destruct Hx as [->|Hx]; [rewrite He; exists e; reflexivity|].
  destruct (f y) as [b|e1]; [cbn [rbind]|exists e1; reflexivity]. destruct (IH Hx) as [e2 ->]. exists e2. reflexivity.
Qed.
Lemma forallb_false {A} (f : A -> bool) l : forallb f l = false -> exists x, In x l /\ f x = false.
Proof.
  induction l as [|x l IH]; [discriminate|]. cbn. destruct (f x) eqn:E; cbn; intros H; [destruct (IH H) as (y & Hy & F); exists y; auto|exists x; auto].
Qed.
Lemma ser_expr_err e : expr_writable e = false -> exists x, ser_expr e = Err x.
Proof.
  induction e as [|t kl kr v ch IH|t k ps IH|t k ps IH|o k] using expr_induction; cbn [expr_writable]; intros W; try discriminate W; cbn [ser_expr].
  - exists UB. reflexivity.
  - destruct (forallb_false _ _ W) as (x & Hx & Fx). rewrite Forall_forall in IH. destruct (ser_list_err ser_expr ch x Hx (IH x Hx Fx)) as [e ->]. exists e. reflexivity.
  - destruct (forallb_false _ _ W) as (x & Hx & Fx). rewrite Forall_forall in IH. specialize (IH x Hx). destruct x as [| |x]; try discriminate Fx.
    destruct (ser_list_err (ser_param ser_expr) ps (PExpr x) Hx (IH Fx)) as [e ->]. exists e. reflexivity.
  - destruct (forallb_false _ _ W) as (x & Hx & Fx). rewrite Forall_forall in IH. specialize (IH x Hx). destruct x as [| |x]; try discriminate Fx.
    destruct (ser_list_err (ser_param ser_expr) ps (PExpr x) Hx (IH Fx)) as [e ->]. exists e. reflexivity.
Qed.
Lemma ser_upd_err u : upd_writable u = false -> exists x, ser_upd u = Err x.
Proof.
  induction u as [|k l IH|k s|id|t l IHl r IHr]; cbn [upd_writable]; intros W; try discriminate W; cbn [ser_upd].
  - exists UB. reflexivity.
  - destruct (IH W) as [e ->]. exists e. reflexivity.
  - destruct (upd_writable l) eqn:El.
    + rewrite (ser_upd_mp l El). cbn [rbind]. destruct (IHr W) as [e ->]. exists e. reflexivity.
    + destruct (IHl eq_refl) as [e ->]. exists e. reflexivity.
Qed.
Lemma ser_match_err c es : match_writable es = false -> exists x, ser_match c es = Err x.
Proof. destruct es as [|e es]; cbn [match_writable ser_match]; intros W; [exists UB; reflexivity|]. destruct (ser_expr_err e W) as [x ->]. exists x. reflexivity. Qed.

Lemma all2_In_r {A B} (P : A -> B -> Prop) l m y : all2 P l m -> In y m -> exists x, In x l /\ P x y.
Proof. revert m. induction l as [|x l IH]; intros [|z m]; cbn; try tauto. intros [Hp Ha] [->|H]; [exists x; auto|]. destruct (IH m Ha H) as (u & Hu & Pu). exists u; auto. Qed.
Lemma all2_length {A B} (P : A -> B -> Prop) l m : all2 P l m -> length l = length m.
Proof. revert m. induction l as [|x l IH]; intros [|z m]; cbn; try tauto. intros [_ H]. f_equal. auto. Qed.
Lemma ser_list_all2 {A B} (P : A -> B -> Prop) (f : A -> res (list byte)) (g : B -> mp) l m :
  all2 P l m -> (forall x y, In y m -> P x y -> f x = Ok (enc (g y))) -> ser_list f l = Ok (enc (MArr (map g m))).
Proof.
  intros H F. unfold ser_list. rewrite enc_arr, map_length, (all2_length P l m H).
  assert (ser_all f l = Ok (flat_map enc (map g m))) as ->; [|reflexivity].
  revert m H F. induction l as [|x l IH]; intros [|y m]; cbn [all2]; intros H F; try contradiction; [reflexivity|]. destruct H as [Hp Ha]. cbn [ser_all].
  rewrite (F x y) by (try exact Hp; left; reflexivity). cbn [rbind]. rewrite (IH m Ha) by (intros; apply F; [right|]; assumption). reflexivity.
Qed.

Ltac split_ok H := repeat match type of H with (_ && _ = true) => let H' := fresh H in apply andb_true_iff in H as [H H'] end.

Section Writing.
  Variable pf : doc -> nat -> res (list byte).
  Lemma ser_doc_mp x v : holds (fst x) (snd x) v -> doc_ok v = true -> ser_doc pf x = Ok (enc (to_mp v)).
  Proof. intros H O. unfold ser_doc. apply pack_content; [exact H|]. destruct v; cbn [doc_ok] in O; try discriminate O. apply andb_true_iff in O. apply O. Qed.

  Lemma ser_node_mp v : forall n, shows n v -> node_ok v = true -> writable v = true -> ser_node pf n = Ok (enc (node_mp v)).
  Proof.
    induction v as [c ch IH|c ch tr IH|t c ch es IH|s a ch IH|docs|v Hv] using node_induction; intros n S O W; rewrite ?Forall_forall in *.
    - destruct n; cbn [shows plain] in S; try discriminate S. destruct S as [-> S]. cbn [ser_node node_mp writable node_ok] in *. split_ok O.
      rewrite (ser_list_all2 shows (ser_node pf) node_mp ch0 ch S).
      + cbn [rbind]. enc_more.
      + intros x y Hy Sxy. apply IH; auto; eapply forallb_In; eassumption.
    - destruct n; cbn [shows plain] in S; try discriminate S. destruct S as (-> & -> & S). cbn [ser_node node_mp writable node_ok] in *. split_ok O.
      rewrite (ser_list_all2 shows (ser_node pf) node_mp ch0 ch S).
      + cbn [rbind]. rewrite (ser_list_mp ser_two (fun p => MArr [key_mp (fst p); key_mp (snd p)])).
        * cbn [rbind]. enc_more.
        * intros p _. unfold ser_two. enc_more.
      + intros x y Hy Sxy. apply IH; auto; eapply forallb_In; eassumption.
    - destruct n; cbn [shows plain] in S; try discriminate S. destruct S as (-> & -> & -> & S). cbn [ser_node node_mp writable node_ok] in *. split_ok O.
      rewrite (ser_list_all2 shows (ser_node pf) node_mp ch0 ch S).
      + cbn [rbind]. enc_more.
      + intros x y Hy Sxy. apply IH; auto; eapply forallb_In; eassumption.
    - destruct n; cbn [shows plain] in S; try discriminate S. destruct S as (-> & -> & S). cbn [ser_node node_mp].
      rewrite (ser_list_mp (fun a => Ok (enc_uint a)) MUint) by reflexivity. cbn [rbind]. enc_more.
    - destruct n; cbn [shows plain] in S; try discriminate S. cbn [ser_node node_mp node_ok] in *. split_ok O.
      rewrite (ser_list_all2 _ (ser_doc pf) to_mp docs0 docs S).
      + cbn [rbind]. enc_more.
      + intros x y Hy Sxy. apply ser_doc_mp; [exact Sxy|]. eapply forallb_In; eassumption.
    - destruct v; cbn [plain] in Hv; try discriminate Hv; clear Hv; destruct n; cbn [shows plain] in S; try discriminate S; try (destruct S; fail);
        try (injection S as; subst); cbn [ser_node node_mp writable node_ok] in *; try discriminate W.
      + enc_more.
      + enc_more.
      + rewrite (ser_list_mp (fun k => Ok (ser_key k)) key_mp) by (intros; rewrite ser_key_mp; reflexivity). cbn [rbind].
        enc_more.
      + rewrite (ser_match_mp mc es W). cbn [rbind]. enc_more.
      + enc_more.
      + enc_more.
      + enc_more.
      + rewrite ser_limit_mp; reflexivity.
      + apply ser_match_mp; exact W.
      + rewrite (ser_list_mp ser_expr expr_mp) by (intros; apply ser_expr_mp; eapply forallb_In; eassumption). cbn [rbind].
        enc_more.
      + rewrite (ser_list_mp ser_expr expr_mp) by (intros; apply ser_expr_mp; eapply forallb_In; eassumption). cbn [rbind].
        enc_more.
      + apply andb_true_iff in W as [W1 W2]. rewrite (ser_match_mp mc es W1). cbn [rbind].
        rewrite (ser_list_mp ser_upd upd_mp) by (intros; apply ser_upd_mp; eapply forallb_In; eassumption). cbn [rbind].
        enc_more.
  Qed.

  Lemma ser_node_err v : forall n, shows n v -> writable v = false -> exists e, ser_node pf n = Err e.
  Proof.
    induction v as [c ch IH|c ch tr IH|t c ch es IH|s a ch IH|docs|v Hv] using node_induction; intros n S W; rewrite ?Forall_forall in *.
    - destruct n; cbn [shows plain] in S; try discriminate S. destruct S as [-> S]. cbn [ser_node writable] in *.
      destruct (forallb_false _ _ W) as (y & Hy & Fy). destruct (all2_In_r shows ch0 ch y S Hy) as (x & Hx & Sx).
      destruct (ser_list_err (ser_node pf) ch0 x Hx (IH y Hy x Sx Fy)) as [e ->]. exists e. reflexivity.
    - destruct n; cbn [shows plain] in S; try discriminate S. destruct S as (-> & -> & S). cbn [ser_node writable] in *.
      destruct (forallb_false _ _ W) as (y & Hy & Fy). destruct (all2_In_r shows ch0 ch y S Hy) as (x & Hx & Sx).
      destruct (ser_list_err (ser_node pf) ch0 x Hx (IH y Hy x Sx Fy)) as [e ->]. exists e. reflexivity.
    - destruct n; cbn [shows plain] in S; try discriminate S. destruct S as (-> & -> & -> & S). cbn [ser_node writable] in *.
      destruct (forallb_false _ _ W) as (y & Hy & Fy). destruct (all2_In_r shows ch0 ch y S Hy) as (x & Hx & Sx).
      destruct (ser_list_err (ser_node pf) ch0 x Hx (IH y Hy x Sx Fy)) as [e ->]. exists e. reflexivity.
    - discriminate W.
    - discriminate W.
    - destruct v; cbn [plain] in Hv; try discriminate Hv; clear Hv; destruct n; cbn [shows plain] in S; try discriminate S; try (destruct S; fail);
        try (injection S as; subst); cbn [ser_node writable] in *; try discriminate W.
      + exists UB; reflexivity.
      + exists Throw; reflexivity.
      + destruct (ser_match_err mc es W) as [e ->]; exists e; reflexivity.
      + apply ser_match_err; exact W.
      + destruct (forallb_false _ _ W) as (y & Hy & Fy). destruct (ser_list_err ser_expr es y Hy (ser_expr_err y Fy)) as [e ->]. exists e. reflexivity.
      + destruct (forallb_false _ _ W) as (y & Hy & Fy). destruct (ser_list_err ser_expr es y Hy (ser_expr_err y Fy)) as [e ->]. exists e. reflexivity.
      + destruct (match_writable es) eqn:M; [|destruct (ser_match_err mc es M) as [e ->]; exists e; reflexivity].
        rewrite (ser_match_mp mc es M). cbn [rbind andb] in *. destruct (forallb_false _ _ W) as (y & Hy & Fy).
        destruct (ser_list_err ser_upd us y Hy (ser_upd_err y Fy)) as [e ->]. exists e. reflexivity.
  Qed.
End Writing.
