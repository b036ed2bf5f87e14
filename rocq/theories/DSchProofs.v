From Verif Require Import Bytes Outcome ByteOrd TrieModel CSchemaModel CSchemaSpec CSchemaProofs DSchModel DSchSpec.
Local Open Scope nat_scope.

Notation doc := (list (list byte * ty)).
Definition is (f : list byte) (k : N) (x : list byte * ty) : bool :=
  if list_eq_dec ascii_dec (fst x) f then (ty_kind (snd x) =? k)%N else false.
Definition cntf f k (l : doc) : nat := length (filter (is f k) l).
Definition cnt f k (ds : list (N * doc)) : nat := cntf f k (flat_map snd ds).
Definition tal f k (c : N) (h : list op) : N := fold_left (tally f k) h c.

Lemma tal_app f k c a b : tal f k c (a ++ b) = tal f k (tal f k c a) b.
Proof. apply fold_left_app. Qed.
Lemma cntf_app f k a b : cntf f k (a ++ b) = cntf f k a + cntf f k b.
Proof. unfold cntf. rewrite filter_app, app_length. reflexivity. Qed.
Lemma cnt_app f k a b : cnt f k (a ++ b) = cnt f k a + cnt f k b.
Proof. unfold cnt. rewrite flat_map_app. apply cntf_app. Qed.

Lemma tally_append f k c x : tally f k c (Append (fst x) (snd x)) = (c + N.of_nat (cntf f k [x]))%N.
Proof.
  unfold tally, cntf, is. cbn [filter]. destruct (list_eq_dec ascii_dec (fst x) f); [|cbn; lia].
  destruct (ty_kind (snd x) =? k)%N; cbn; lia.
Qed.
Lemma tal_fields f k (l : doc) : forall c, tal f k c (map (fun x => Append (fst x) (snd x)) l) = (c + N.of_nat (cntf f k l))%N.
Proof.
  induction l as [|x l IH]; intros c; [cbn; lia|].
  change (x :: l) with ([x] ++ l). rewrite map_app, tal_app, IH. cbn [map]. unfold tal at 1. cbn [fold_left].
  rewrite tally_append, cntf_app. lia.
Qed.
Lemma tal_appends f k ds : forall c, tal f k c (appends ds) = (c + N.of_nat (cnt f k ds))%N.
Proof.
  induction ds as [|d ds IH]; intros c; [cbn; lia|].
  unfold appends. cbn [flat_map]. rewrite tal_app, tal_fields. change (flat_map _ ds) with (appends ds).
  rewrite IH. unfold cnt. cbn [flat_map]. rewrite cntf_app. lia.
Qed.

(** ** The removed types *)
Definition get f k (m : list ((list byte * ty) * N)) : N :=
  fold_right (fun e a => if is f k (fst e) then (snd e + a)%N else a) 0%N m.
Lemma tal_drops f k m : forall c, tal f k c (drops m) = (c - get f k m)%N.
Proof.
  induction m as [|[[g t] n] m IH]; intros c; [cbn; lia|].
  unfold drops. cbn [map]. unfold tal. cbn [fold_left]. change (fold_left (tally f k) (map _ m)) with (fun c => tal f k c (drops m)).
  cbv beta. rewrite IH. cbn [get fold_right fst snd]. change (fold_right _ 0%N m) with (get f k m).
  unfold tally, is. cbn [fst snd]. destruct (list_eq_dec ascii_dec g f); [|reflexivity].
  destruct (ty_kind t =? k)%N; lia.
Qed.
Lemma bltb_total a b : bltb a b = false -> bltb b a = false -> a = b.
Proof.
  unfold bltb. intros H1 H2. rewrite (bcmp_sym a b) in H2. destruct (bcmp a b) eqn:E; try discriminate.
  now apply bcmp_eq.
Qed.
Lemma before_total x y : before x y = false -> before y x = false -> fst x = fst y /\ ty_kind (snd x) = ty_kind (snd y).
Proof.
  unfold before. destruct (beqb_spec (fst x) (fst y)) as [E|E].
  - rewrite E. destruct (beqb_spec (fst y) (fst y)) as [_|C]; [|contradiction].
    rewrite !N.ltb_ge. intros. split; [reflexivity|lia].
  - destruct (beqb_spec (fst y) (fst x)) as [C|_]; [congruence|].
    intros H1 H2. exfalso. apply E. apply bltb_total; assumption.
Qed.
Lemma is_same f k x y : fst x = fst y -> ty_kind (snd x) = ty_kind (snd y) -> is f k x = is f k y.
Proof. unfold is. intros -> ->. reflexivity. Qed.
Lemma get_bump f k x m : get f k (bump m x) = (get f k m + N.of_nat (cntf f k [x]))%N.
Proof.
  unfold cntf. cbn [filter]. induction m as [|[y n] m IH].
  - cbn [bump get fold_right fst snd]. destruct (is f k x); cbn; lia.
  - cbn [bump]. destruct (before y x) eqn:E1; [|destruct (before x y) eqn:E2].
    + cbn [get fold_right fst snd]. change (fold_right _ 0%N (bump m x)) with (get f k (bump m x)).
      change (fold_right _ 0%N m) with (get f k m). rewrite IH. destruct (is f k y); lia.
    + cbn [get fold_right fst snd]. destruct (is f k x), (is f k y); cbn [length]; lia.
    + destruct (before_total _ _ E1 E2) as [A B]. cbn [get fold_right fst snd].
      rewrite <- (is_same f k y x A B). destruct (is f k y); cbn [length]; lia.
Qed.
Lemma get_fields f k (l : doc) : forall m, get f k (fold_left bump l m) = (get f k m + N.of_nat (cntf f k l))%N.
Proof.
  induction l as [|x l IH]; intros m; [unfold cntf; cbn [filter length fold_left]; lia|]. cbn [fold_left]. rewrite IH, get_bump.
  change (x :: l) with ([x] ++ l). rewrite cntf_app. lia.
Qed.
Lemma get_types f k ds : get f k (types_of ds) = N.of_nat (cnt f k ds).
Proof.
  unfold types_of. transitivity (get f k [] + N.of_nat (cnt f k ds))%N; [|reflexivity].
  generalize (@nil (list byte * ty * N)). induction ds as [|d ds IH]; intros m; [unfold cnt, cntf; cbn [flat_map filter length fold_left]; lia|].
  cbn [fold_left]. rewrite IH, get_fields. unfold cnt. cbn [flat_map]. rewrite cntf_app. lia.
Qed.
Lemma bump_length x m : length (bump m x) <= S (length m).
Proof.
  induction m as [|[y n] m IH]; cbn; [lia|]. destruct (before y x); [cbn; lia|]. destruct (before x y); cbn; lia.
Qed.
Lemma types_length ds : length (types_of ds) <= length (flat_map snd ds).
Proof.
  unfold types_of. transitivity (length (@nil (list byte * ty * N)) + length (flat_map snd ds)); [|reflexivity].
  generalize (@nil (list byte * ty * N)). induction ds as [|d ds IH]; intros m; [cbn; lia|].
  cbn [fold_left flat_map]. rewrite app_length. etransitivity; [apply IH|].
  assert (H : forall l m, length (fold_left bump l m) <= length m + length l).
  { clear. induction l as [|x l IH]; intros m; [cbn; lia|]. cbn [fold_left]. etransitivity; [apply IH|].
    pose proof (bump_length x m). cbn. lia. }
  pose proof (H (snd d) m). lia.
Qed.
Lemma in_bump x m y n : In (y, n) (bump m x) -> y = x \/ exists n', In (y, n') m.
Proof.
  induction m as [|[z j] m IH]; cbn.
  - intros [[= <- <-]|[]]. left. reflexivity.
  - destruct (before z x); [|destruct (before x z)].
    + intros [[= <- <-]|H]; [right; eauto|]. destruct (IH H) as [->|[n' Hn]]; eauto.
    + intros [[= <- <-]|H]; [left; reflexivity|right; exists n; exact H].
    + intros [[= <- <-]|H]; [right; eauto|right; exists n; right; exact H].
Qed.
Lemma in_types ds y n : In (y, n) (types_of ds) -> exists d, In d ds /\ In y (snd d).
Proof.
  assert (A : forall l m y n, In (y, n) (fold_left bump l m) -> In y l \/ exists n', In (y, n') m).
  { clear. induction l as [|x l IH]; intros m y n H; [right; eauto|]. cbn in H.
    destruct (IH _ _ _ H) as [Hl|[n' Hn]]; [left; right; exact Hl|].
    destruct (in_bump _ _ _ _ Hn) as [->|Hm]; [left; left; reflexivity|right; exact Hm]. }
  assert (B : forall m n, In (y, n) (fold_left (fun m d => fold_left bump (snd d) m) ds m) ->
              (exists d, In d ds /\ In y (snd d)) \/ exists n', In (y, n') m).
  { clear n. induction ds as [|d ds IH]; intros m n H; [right; eauto|]. cbn in H.
    destruct (IH _ _ H) as [[e [He Hy]]|[n' Hn]]; [left; exists e; split; [right; exact He|exact Hy]|].
    destruct (A _ _ _ _ Hn) as [Hd|Hm]; [left; exists d; split; [left; reflexivity|exact Hd]|right; exact Hm]. }
  intros H. destruct (B _ _ H) as [Hd|[n' []]]. exact Hd.
Qed.

Lemma cnt_pos f k ds : 0 < cnt f k ds <-> exists d, In d ds /\ has (snd d) f k.
Proof.
  unfold cnt, cntf. split.
  - destruct (filter (is f k) (flat_map snd ds)) as [|x r] eqn:E; [cbn; lia|]. intros _.
    assert (HI : In x (filter (is f k) (flat_map snd ds))) by (rewrite E; left; reflexivity).
    apply filter_In in HI as [HI Hx]. apply in_flat_map in HI as [d [Hd HxI]]. exists d. split; [exact Hd|].
    unfold is in Hx. destruct (list_eq_dec ascii_dec (fst x) f) as [Ef|]; [|discriminate]. apply N.eqb_eq in Hx.
    exists (snd x). split; [rewrite <- Ef; destruct x; exact HxI|exact Hx].
  - intros [d [Hd [t [Ht Hk]]]].
    assert (HI : In (f, t) (filter (is f k) (flat_map snd ds))).
    { apply filter_In. split; [apply in_flat_map; eauto|]. unfold is. cbn [fst snd].
      destruct (list_eq_dec ascii_dec f f); [|contradiction]. apply N.eqb_eq. exact Hk. }
    destruct (filter _ _); [contradiction|cbn; lia].
Qed.

(** ** Documents *)
Lemma assign_new s (d : N * doc) : ~ In (fst d) (map fst s) -> assign s d = s ++ [d].
Proof.
  intros H. unfold assign. destruct (existsb _ s) eqn:E; [|reflexivity]. exfalso. apply existsb_exists in E.
  destruct E as [x [Hx E]]. apply N.eqb_eq in E. apply H. rewrite <- E. apply in_map. exact Hx.
Qed.
Lemma assign_all ds : forall s : list (N * doc), NoDup (map fst ds) -> (forall d, In d ds -> ~ In (fst d) (map fst s)) ->
  fold_left assign ds s = s ++ ds.
Proof.
  induction ds as [|d ds IH]; intros s Hn Hf; [rewrite app_nil_r; reflexivity|]. cbn [fold_left].
  cbn in Hn. inversion Hn as [|? ? Hd Hn']; subst.
  rewrite assign_new by (apply Hf; left; reflexivity). rewrite IH.
  - rewrite <- app_assoc. reflexivity.
  - exact Hn'.
  - intros e He HI. rewrite map_app in HI. apply in_app_iff in HI as [HI|[HI|[]]].
    + apply (Hf e (or_intror He)). exact HI.
    + apply Hd. rewrite HI. apply in_map. exact He.
Qed.
Lemma cnt_split f k (p : N * doc -> bool) ds : cnt f k ds = cnt f k (filter p ds) + cnt f k (filter (fun d => negb (p d)) ds).
Proof.
  induction ds as [|d ds IH]; [reflexivity|]. change (d :: ds) with ([d] ++ ds) at 1. rewrite cnt_app, IH. cbn [filter].
  destruct (p d); cbn [negb]; change (d :: filter ?q ds) with ([d] ++ filter q ds); rewrite cnt_app; lia.
Qed.
Lemma len_split (p : N * doc -> bool) ds :
  fields_in ds = fields_in (filter p ds) + fields_in (filter (fun d => negb (p d)) ds).
Proof.
  unfold fields_in. induction ds as [|d ds IH]; [reflexivity|]. cbn [filter flat_map]. rewrite app_length, IH.
  destruct (p d); cbn [negb flat_map]; rewrite app_length; lia.
Qed.
Lemma len_appends ds : length (appends ds) = fields_in ds.
Proof.
  unfold fields_in. induction ds as [|d ds IH]; [reflexivity|]. unfold appends. cbn [flat_map]. rewrite !app_length, map_length.
  change (flat_map _ ds) with (appends ds) at 1. rewrite IH. reflexivity.
Qed.

(** ** Calls under way *)
Definition ops_of (q : stmt) (m : list ((list byte * ty) * N)) : list op :=
  match q with Insert ds => appends ds | Delete _ => drops m | _ => [] end.
Definition pend_log (c : N) (r : list ((list byte * ty) * N)) (l : list (N * stmt)) : list op :=
  flat_map (fun x => if (fst x =? c)%N then ops_of (snd x) r else []) l.
Definition pend_fin (c : N) (l : list (N * stmt * list ((list byte * ty) * N))) : list op :=
  flat_map (fun x => if (fst (fst x) =? c)%N then ops_of (snd (fst x)) (snd x) else []) l.
Definition dels (l : list (N * stmt)) : nat := length (filter (fun x => is_delete (snd x)) l).

Definition from (ds : list (N * doc)) (o : op) : Prop := exists d, In d ds /\ has (snd d) (op_field o) (op_kind o).

Record J (es : list event) (w : world) (hist : N -> list op) : Prop := {
  J_calls : forall c, calls empty_schema (hist c) = Ok (schemas w c);
  J_count : forall c f k, tal f k 0 (hist c ++ pend_log c (result w) (logd w) ++ pend_fin c (fin w)) = N.of_nat (cnt f k (docs w c));
  J_docs : forall c d, In d (docs w c) -> In d (inserted es c);
  J_ops : forall c o, In o (hist c ++ pend_log c (result w) (logd w) ++ pend_fin c (fin w)) -> from (inserted es c) o;
  J_len : forall c, length (hist c ++ pend_log c (result w) (logd w) ++ pend_fin c (fin w)) + fields_in (docs w c) <= 2 * fields_in (inserted es c);
  J_none : dels (logd w) = 0 -> result w = [];
  J_one : dels (logd w) <= 1
}.

Lemma calls_app a : forall s b, calls s (a ++ b) = (do s' <- calls s a; calls s' b).
Proof.
  induction a as [|o a IH]; intros s b; [reflexivity|]. cbn [app calls]. destruct (CSchemaModel.step s o) as [s1 [| |]]; try apply IH. reflexivity.
Qed.
Lemma calls_run h : forall s s', calls s h = Ok s' -> exists outs, CSchemaModel.run s h = (s', outs) /\ ~ In Thrown outs.
Proof.
  induction h as [|o h IH]; intros s s' H.
  - cbn in H. injection H as <-. exists []. split; [reflexivity|intros []].
  - cbn [calls] in H. cbn [CSchemaModel.run]. destruct (CSchemaModel.step s o) as [s1 x].
    destruct x; try discriminate; destruct (IH _ _ H) as [outs [E No]]; rewrite E; eexists; (split; [reflexivity|]);
      intros [C|C]; try discriminate; contradiction.
Qed.

Lemma pend_log_nodel c r r' l : dels l = 0 -> pend_log c r l = pend_log c r' l.
Proof.
  unfold dels, pend_log. induction l as [|[c' q] l IH]; intros H; [reflexivity|]. cbn [flat_map fst snd filter] in *.
  destruct (is_delete q) eqn:E; [cbn in H; lia|]. rewrite (IH H). f_equal. destruct (c' =? c)%N; [|reflexivity].
  destruct q; try reflexivity; discriminate E.
Qed.
Lemma dels_app a b : dels (a ++ b) = dels a + dels b.
Proof. unfold dels. rewrite filter_app, app_length. reflexivity. Qed.
Lemma dels_none l : (forall x, In x l -> is_delete (snd x) = false) -> dels l = 0.
Proof.
  unfold dels. induction l as [|x l IH]; intros H; [reflexivity|]. cbn [filter]. rewrite (H x (or_introl eq_refl)). apply IH.
  intros y Hy. apply H. right. exact Hy.
Qed.
Lemma inserted_app a b c : inserted (a ++ b) c = inserted a c ++ inserted b c.
Proof. apply flat_map_app. Qed.
Lemma fields_app a b : fields_in (a ++ b) = fields_in a + fields_in b.
Proof. unfold fields_in. rewrite flat_map_app, app_length. reflexivity. Qed.
Lemma from_app a b o : from a o -> from (a ++ b) o.
Proof. intros [d [Hd H]]. exists d. split; [apply in_app_iff; left; exact Hd|exact H]. Qed.
Lemma pend_fin_app c a b : pend_fin c (a ++ b) = pend_fin c a ++ pend_fin c b.
Proof. apply flat_map_app. Qed.
Lemma pend_log_app c r a b : pend_log c r (a ++ b) = pend_log c r a ++ pend_log c r b.
Proof. apply flat_map_app. Qed.
Lemma from_appends ds o : In o (appends ds) -> from ds o.
Proof.
  unfold appends. intros H. apply in_flat_map in H as [d [Hd H]]. apply in_map_iff in H as [[f t] [<- Hx]].
  exists d. split; [exact Hd|]. exists t. split; [exact Hx|reflexivity].
Qed.
Lemma from_drops ds o : In o (drops (types_of ds)) -> from ds o.
Proof.
  unfold drops. intros H. apply in_map_iff in H as [[[f t] n] [<- Hx]]. apply in_types in Hx as [d [Hd Hy]].
  exists d. split; [exact Hd|]. exists t. split; [exact Hy|reflexivity].
Qed.
Lemma step_exec w c q : step w (Exec c q) =
  Ok (World (upd (docs w) c (fst (execute (docs w c) q))) (schemas w) (result w) (fin w ++ [(c, q, snd (execute (docs w c) q))]) (logd w)).
Proof. cbn [step]. destruct (execute (docs w c) q). reflexivity. Qed.

Lemma J_exec es w hist c q w' : J es w hist -> step w (Exec c q) = Ok w' -> plain_event w (Exec c q) ->
  J (es ++ [Exec c q]) w' hist.
Proof.
  intros [K1 K2 K3 K4 K5 K6 K7] E P. rewrite step_exec in E. injection E as <-.
  destruct q as [ds|ds|p|p|g]; cbn [plain_event] in P; try contradiction.
  - destruct P as [Pn Pf]. constructor; cbn [docs schemas result fin logd execute fst snd]; try assumption.
    + intros c' f k. unfold upd. rewrite pend_fin_app, !app_assoc, tal_app, <- !app_assoc, K2.
      unfold pend_fin. cbn [flat_map fst snd ops_of]. rewrite app_nil_r.
      destruct (N.eqb_spec c c') as [<-|Ne].
      * rewrite N.eqb_refl, tal_appends, (assign_all ds (docs w c) Pn Pf), cnt_app. lia.
      * destruct (N.eqb_spec c' c); [congruence|]. reflexivity.
    + intros c' d. unfold upd. rewrite inserted_app, in_app_iff. unfold inserted at 2. cbn [flat_map]. rewrite app_nil_r.
      destruct (N.eqb_spec c' c) as [->|Ne].
      * rewrite N.eqb_refl, (assign_all ds (docs w c) Pn Pf), in_app_iff. intros [H|H]; [left; apply K3; exact H|right; exact H].
      * intros H. left. apply K3. exact H.
    + intros c' o. rewrite pend_fin_app, !app_assoc, in_app_iff, <- !app_assoc. rewrite inserted_app. intros [H|H].
      * apply from_app, K4, H.
      * unfold pend_fin in H. cbn [flat_map fst snd ops_of] in H. rewrite app_nil_r in H. unfold inserted at 2. cbn [flat_map].
        rewrite app_nil_r. destruct (c =? c')%N; [|contradiction]. destruct (from_appends _ _ H) as [d [Hd Hh]].
        exists d. split; [apply in_app_iff; right; exact Hd|exact Hh].
    + intros c'. specialize (K5 c'). unfold upd. rewrite pend_fin_app, !app_length in *. rewrite inserted_app, fields_app.
      unfold pend_fin at 2. unfold inserted at 2. cbn [flat_map fst snd ops_of]. rewrite !app_nil_r.
      destruct (N.eqb_spec c c') as [<-|Ne].
      * rewrite N.eqb_refl, (assign_all ds (docs w c) Pn Pf), fields_app, len_appends. lia.
      * destruct (N.eqb_spec c' c); [congruence|]. cbn [length]. lia.
  - constructor; cbn [docs schemas result fin logd execute fst snd]; try assumption.
    + intros c' f k. unfold upd. rewrite pend_fin_app, !app_assoc, tal_app, <- !app_assoc, K2.
      unfold pend_fin. cbn [flat_map fst snd ops_of]. rewrite app_nil_r.
      destruct (N.eqb_spec c c') as [<-|Ne].
      * rewrite N.eqb_refl, tal_drops, get_types. rewrite (cnt_split f k p (docs w c)). lia.
      * destruct (N.eqb_spec c' c); [congruence|]. reflexivity.
    + intros c' d. unfold upd. rewrite inserted_app. unfold inserted at 2. cbn [flat_map]. rewrite !app_nil_r.
      destruct (N.eqb_spec c' c) as [->|Ne]; [intros H; apply filter_In in H as [H _]; apply K3; exact H|apply K3].
    + intros c' o. rewrite pend_fin_app, !app_assoc, in_app_iff, <- !app_assoc. rewrite inserted_app. intros [H|H].
      * apply from_app, K4, H.
      * unfold pend_fin in H. cbn [flat_map fst snd ops_of] in H. rewrite app_nil_r in H.
        destruct (N.eqb_spec c c') as [<-|Ne]; [|contradiction]. apply from_app. destruct (from_drops _ _ H) as [d [Hd Hh]].
        apply filter_In in Hd as [Hd _]. exists d. split; [apply K3; exact Hd|exact Hh].
    + intros c'. specialize (K5 c'). unfold upd. rewrite pend_fin_app, !app_length in *. rewrite inserted_app, fields_app.
      unfold pend_fin at 2. unfold inserted at 2. cbn [flat_map fst snd ops_of]. rewrite !app_nil_r.
      destruct (N.eqb_spec c c') as [<-|Ne].
      * rewrite N.eqb_refl. unfold drops. rewrite map_length. pose proof (types_length (filter p (docs w c))) as HT.
        fold (fields_in (filter p (docs w c))) in HT. rewrite (len_split p (docs w c)) in K5.
        lia.
      * destruct (N.eqb_spec c' c); [congruence|]. cbn [length]. lia.
Qed.

Lemma inserted_other es e c : (match e with Exec _ (Insert _) => False | _ => True end) -> inserted (es ++ [e]) c = inserted es c.
Proof.
  intros H. rewrite inserted_app. unfold inserted at 2. cbn [flat_map]. destruct e as [c' [ds| | | | ]| |]; try contradiction;
    rewrite !app_nil_r; reflexivity.
Qed.

(* only inserts and scanning deletes are under way *)
Definition ok_stmt (q : stmt) : Prop := match q with Insert _ | Delete _ => True | _ => False end.
Definition K (w : world) : Prop := (forall c q m, In (c, q, m) (fin w) -> ok_stmt q) /\ (forall c q, In (c, q) (logd w) -> ok_stmt q)
  /\ (forall c q m, In (c, q, m) (fin w) -> is_delete q = false -> m = []).

Lemma J_finish es w hist w' : J es w hist -> K w -> step w Finish = Ok w' -> plain_event w Finish -> J (es ++ [Finish]) w' hist.
Proof.
  intros [K1 K2 K3 K4 K5 K6 K7] [Ha [Hb Hc]] E P. cbn [step plain_event] in *.
  destruct (fin w) as [|[[c0 q0] m0] rest] eqn:Ef.
  - injection E as <-. constructor; rewrite ?Ef; intros; rewrite ?inserted_other by exact I; auto.
  - injection E as <-.
    assert (HP : forall c, pend_log c (match m0 with [] => result w | _ => m0 end) (logd w ++ [(c0, q0)]) ++ pend_fin c rest
                 = pend_log c (result w) (logd w) ++ pend_fin c ((c0, q0, m0) :: rest)).
    { intros c. rewrite pend_log_app, <- app_assoc. change ((c0, q0, m0) :: rest) with ([(c0, q0, m0)] ++ rest). rewrite pend_fin_app.
      destruct (is_delete q0) eqn:Ed.
      - specialize (P eq_refl). pose proof (dels_none _ P) as D0. rewrite (pend_log_nodel c _ (result w) _ D0). f_equal. f_equal.
        unfold pend_log, pend_fin. cbn [flat_map fst snd]. rewrite !app_nil_r. destruct (c0 =? c)%N; [|reflexivity]. f_equal.
        destruct m0; [apply K6; exact D0|reflexivity].
      - rewrite (Hc _ _ _ (or_introl eq_refl) Ed). f_equal. f_equal.
        unfold pend_log, pend_fin. cbn [flat_map fst snd]. rewrite !app_nil_r. destruct (c0 =? c)%N; [|reflexivity].
        destruct q0; try reflexivity; discriminate Ed. }
    constructor; cbn [docs schemas result fin logd]; intros; rewrite ?HP; rewrite ?inserted_other by exact I; auto.
    + rewrite HP in *. auto.
    + unfold dels in *. rewrite filter_app, app_length in *. cbn [filter snd] in *. destruct (is_delete q0) eqn:Ed; [cbn in *; lia|].
      rewrite (Hc _ _ _ (or_introl eq_refl) Ed). apply K6. cbn in *. lia.
    + rewrite dels_app. unfold dels at 2. cbn [filter snd]. destruct (is_delete q0) eqn:Ed; [|cbn; lia].
      rewrite (dels_none _ (P eq_refl)). cbn. lia.
Qed.

Lemma J_logged es w hist w' : J es w hist -> K w -> step w Logged = Ok w' -> exists hist', J (es ++ [Logged]) w' hist'.
Proof.
  intros [K1 K2 K3 K4 K5 K6 K7] [Ha [Hb Hc]] E. cbn [step] in E.
  destruct (logd w) as [|[c0 q0] rest] eqn:El.
  - injection E as <-. exists hist. constructor; rewrite ?El; intros; rewrite ?inserted_other by exact I; auto.
  - pose proof (Hb c0 q0 (or_introl eq_refl)) as Hq.
    set (ops := ops_of q0 (result w)).
    exists (fun c => if (c0 =? c)%N then hist c ++ ops else hist c).
    assert (HW : exists s r, calls (schemas w c0) ops = Ok s /\ w' = World (docs w) (upd (schemas w) c0 s) r (fin w) rest
                 /\ (if is_delete q0 then r = [] else r = result w)).
    { unfold ops. destruct q0 as [ds|ds|p|p|g]; try contradiction Hq; cbn [update_catalog schemas docs result fin logd ops_of is_delete] in *.
      - destruct (calls (schemas w c0) (appends ds)) as [s|] eqn:Ec; [|discriminate]. cbn in E. injection E as <-. eauto.
      - destruct (calls (schemas w c0) (drops (result w))) as [s|] eqn:Ec; [|discriminate]. cbn in E. injection E as <-. eauto. }
    destruct HW as [s [r [Ec [-> Hr]]]].
    assert (HR : forall c, pend_log c r rest = pend_log c (result w) rest).
    { intros c. destruct (is_delete q0) eqn:Ed; [|rewrite Hr; reflexivity]. apply pend_log_nodel.
      unfold dels in *. cbn [filter snd] in K7. rewrite Ed in K7. cbn in K7. lia. }
    assert (HP : forall c, (if (c0 =? c)%N then hist c ++ ops else hist c) ++ pend_log c r rest ++ pend_fin c (fin w)
                 = hist c ++ pend_log c (result w) ((c0, q0) :: rest) ++ pend_fin c (fin w)).
    { intros c. rewrite HR. change ((c0, q0) :: rest) with ([(c0, q0)] ++ rest). rewrite pend_log_app. unfold pend_log at 2.
      cbn [flat_map fst snd]. rewrite app_nil_r. fold ops. destruct (c0 =? c)%N; rewrite <- ?app_assoc; reflexivity. }
    constructor; cbn [docs schemas result fin logd]; intros; rewrite ?HP; rewrite ?inserted_other by exact I; auto.
    + unfold upd. destruct (N.eqb_spec c0 c) as [<-|Ne].
      * rewrite N.eqb_refl, calls_app, K1. cbn [rbind]. exact Ec.
      * destruct (N.eqb_spec c c0); [congruence|]. apply K1.
    + rewrite HP in *. auto.
    + destruct (is_delete q0) eqn:Ed; [exact Hr|]. rewrite Hr. apply K6. unfold dels in *. cbn [filter snd]. rewrite Ed. exact H.
    + unfold dels in *. cbn [filter snd] in K7. destruct (is_delete q0); cbn in K7; lia.
Qed.

Lemma K_step w e w' : K w -> step w e = Ok w' -> plain_event w e -> K w'.
Proof.
  intros [Ha [Hb Hc]] E P. destruct e as [c q| |].
  - rewrite step_exec in E. injection E as <-. repeat split; cbn [fin logd].
    + intros c' q' m H. apply in_app_iff in H as [H|[[= <- <- <-]|[]]]; [eauto|].
      destruct q; cbn in P; try contradiction; exact I.
    + exact Hb.
    + intros c' q' m H. apply in_app_iff in H as [H|[[= <- <- <-]|[]]]; [eauto|].
      destruct q; cbn in P; try contradiction; [reflexivity|discriminate].
  - cbn [step] in E. destruct (fin w) as [|[[c0 q0] m0] rest] eqn:Ef; injection E as <-.
    + repeat split; rewrite ?Ef; [intros ? ? ? []|exact Hb|intros ? ? ? []].
    + repeat split; cbn [fin logd].
      * intros c q m H. apply (Ha c q m). right. exact H.
      * intros c q H. apply in_app_iff in H as [H|[[= <- <-]|[]]]; [eauto|]. apply (Ha c0 q0 m0). left. reflexivity.
      * intros c q m H. apply (Hc c q m). right. exact H.
  - cbn [step] in E. destruct (logd w) as [|[c0 q0] rest] eqn:El.
    + injection E as <-. repeat split; rewrite ?El; [exact Ha|intros ? ? []|exact Hc].
    + assert (H : fin w' = fin w /\ logd w' = rest).
      { destruct q0; cbn [update_catalog schemas docs result fin logd] in E;
          try (destruct (calls _ _); [|discriminate E]; cbn in E); injection E as <-; split; reflexivity. }
      destruct H as [H1 H2]. repeat split; rewrite ?H1, ?H2; [exact Ha| |exact Hc]. intros c q H. apply (Hb c q). right. exact H.
Qed.

Lemma J_run es : forall past w hist w', J past w hist -> K w -> run w es = Ok w' -> plain w es -> exists hist', J (past ++ es) w' hist'.
Proof.
  induction es as [|e es IH]; intros past w hist w' HJ HK R P.
  - cbn in R. injection R as <-. rewrite app_nil_r. eauto.
  - cbn [run] in R. destruct (step w e) as [w1|] eqn:E; [|discriminate]. cbn [rbind] in R. destruct P as [P1 P2].
    assert (H1 : exists h1, J (past ++ [e]) w1 h1).
    { destruct e as [c q| |].
      - exists hist. eapply J_exec; eassumption.
      - exists hist. eapply J_finish; eassumption.
      - eapply J_logged; eassumption. }
    destruct H1 as [h1 H1]. change (e :: es) with ([e] ++ es). rewrite app_assoc.
    apply (IH _ w1 h1 w' H1 (K_step _ _ _ HK E P1) R (P2 w1 E)).
Qed.
Lemma J_start : J [] start (fun _ => []).
Proof. constructor; cbn; intros; try reflexivity; try contradiction; lia. Qed.
Lemma K_start : K start.
Proof. repeat split; cbn; intros; contradiction. Qed.

Lemma pend_log_nil c r l : (forall q, ~ In (c, q) l) -> pend_log c r l = [].
Proof.
  unfold pend_log. induction l as [|[c' q] l IH]; intros H; [reflexivity|]. cbn [flat_map fst snd].
  rewrite IH by (intros q' Hq; apply (H q'); right; exact Hq).
  destruct (N.eqb_spec c' c) as [->|Ne]; [exfalso; apply (H q); left; reflexivity|reflexivity].
Qed.
Lemma pend_fin_nil c l : (forall q m, ~ In (c, q, m) l) -> pend_fin c l = [].
Proof.
  unfold pend_fin. induction l as [|[[c' q] m] l IH]; intros H; [reflexivity|]. cbn [flat_map fst snd].
  rewrite IH by (intros q' m' Hq; apply (H q' m'); right; exact Hq).
  destruct (N.eqb_spec c' c) as [->|Ne]; [exfalso; apply (H q m); left; reflexivity|reflexivity].
Qed.
Lemma reach es w c : run start es = Ok w -> plain start es -> idle w c ->
  exists h outs, CSchemaModel.run empty_schema h = (schemas w c, outs) /\ ~ In Thrown outs /\
    (forall f k, count h f k = N.of_nat (cnt f k (docs w c))) /\
    (forall o, In o h -> from (inserted es c) o) /\ length h <= 2 * fields_in (inserted es c).
Proof.
  intros R P [I1 I2]. destruct (J_run es [] start _ w J_start K_start R P) as [hist [K1 K2 K3 K4 K5 _ _]]. cbn [app] in *.
  pose proof (pend_log_nil c (result w) (logd w) I2) as E1. pose proof (pend_fin_nil c (fin w) I1) as E2.
  specialize (K1 c). specialize (K2 c). specialize (K4 c). specialize (K5 c). rewrite E1, E2 in *. cbn [app] in *. rewrite app_nil_r in *.
  destruct (calls_run _ _ _ K1) as [outs [Er No]]. exists (hist c), outs. repeat split; try assumption. lia.
Qed.

Lemma plain_prefixes_of ds h : one_kind_prefixes ds -> (forall o, In o h -> from ds o) -> plain_prefixes h.
Proof.
  intros H F o p Ho Hp [a [l E]] o' Ho' Ef.
  destruct (F o Ho) as [d [Hd Hh]], (F p Hp) as [d1 [Hd1 Hh1]], (F o' Ho') as [d2 [Hd2 Hh2]].
  rewrite Ef in Hh2. apply (H d2 d (op_field o)); auto. exists d1, a, l, (op_kind p). rewrite <- E. auto.
Qed.
Lemma one_kind_weak ds : one_kind ds -> one_kind_prefixes ds.
Proof. intros H d e f k l Hd He H1 H2 _. exact (H d e f k l Hd He H1 H2). Qed.

Lemma inv_of es w c : run start es = Ok w -> plain start es -> idle w c ->
  one_kind_prefixes (inserted es c) -> (2 * N.of_nat (fields_in (inserted es c)) < 2 ^ 64)%N ->
  exists h, Inv (schemas w c) h /\ (forall f k, count h f k = N.of_nat (cnt f k (docs w c))) /\ (forall o, In o h -> from (inserted es c) o).
Proof.
  intros R P Hi Hk Hl. destruct (reach es w c R P Hi) as [h [outs [Er [No [Hc [Hf Hn]]]]]]. exists h. split; [|split; assumption].
  apply (inv_reach h _ outs Er No (plain_prefixes_of _ _ Hk Hf)). unfold U64. lia.
Qed.

Lemma main_lists es w c : run start es = Ok w -> plain start es -> idle w c ->
  one_kind_prefixes (inserted es c) -> (2 * N.of_nat (fields_in (inserted es c)) < 2 ^ 64)%N ->
  forall f, (exists d k, In d (docs w c) /\ has (snd d) f k) ->
  exists l, find_field_versions (schemas w c) f = Ok l /\ NoDup (map ty_kind l) /\
    forall k, In k (map ty_kind l) <-> exists d, In d (docs w c) /\ has (snd d) f k.
Proof.
  intros R P Hi Hk Hl f [d [k [Hd Hh]]]. destruct (inv_of es w c R P Hi Hk Hl) as [h [HI [Hc _]]].
  destruct (proj2 (inv_lists _ h f HI)) as [l [E [Hn Hl']]].
  { exists k. rewrite Hc. assert (0 < cnt f k (docs w c)) by (apply cnt_pos; eauto). lia. }
  exists l. split; [exact E|]. split; [exact Hn|]. intros k'. rewrite Hl', Hc, <- cnt_pos. lia.
Qed.
Lemma main_sound es w c : run start es = Ok w -> plain start es -> idle w c ->
  one_kind_prefixes (inserted es c) -> (2 * N.of_nat (fields_in (inserted es c)) < 2 ^ 64)%N ->
  forall f t, In (f, t) (get_schema w c) -> exists d, In d (docs w c) /\ has (snd d) f (ty_kind t).
Proof.
  intros R P Hi Hk Hl f t H. destruct (inv_of es w c R P Hi Hk Hl) as [h [HI [Hc _]]].
  apply cnt_pos. pose proof (struct_sound _ _ _ _ HI H) as Hp. rewrite Hc in Hp. lia.
Qed.
Lemma main_exact es w c : run start es = Ok w -> plain start es -> idle w c ->
  one_kind (inserted es c) -> (2 * N.of_nat (fields_in (inserted es c)) < 2 ^ 64)%N ->
  forall f k, (exists t, In (f, t) (get_schema w c) /\ ty_kind t = k) <-> (exists d, In d (docs w c) /\ has (snd d) f k).
Proof.
  intros R P Hi Hk Hl f k. split.
  - intros [t [H <-]]. eapply main_sound; eauto using one_kind_weak.
  - intros [d [Hd Hh]]. destruct (inv_of es w c R P Hi (one_kind_weak _ Hk) Hl) as [h [HI [Hc Hf]]].
    assert (Hp : (0 < rc k (LK (schemas w c) f))%N).
    { rewrite (I_count _ _ HI), Hc. assert (0 < cnt f k (docs w c)) by (apply cnt_pos; eauto). lia. }
    assert (Hne : LK (schemas w c) f <> []) by (intros E; rewrite E in Hp; cbn in Hp; lia).
    assert (H1 : length (map vkind (LK (schemas w c) f)) <= 1).
    { assert (Hin : In k (map vkind (LK (schemas w c) f))).
      { destruct (in_dec N.eq_dec k (map vkind (LK (schemas w c) f))) as [i|n]; [exact i|]. rewrite (rc_absent _ _ n) in Hp. lia. }
      apply (NoDup_const _ k (I_nodup _ _ HI f)). intros x Hx.
      destruct (I_kinds _ _ HI f x Hx) as [o [Ho [Eo Ek]]]. destruct (I_kinds _ _ HI f k Hin) as [o' [Ho' [Eo' Ek']]].
      destruct (Hf o Ho) as [d1 [Hd1 Hh1]], (Hf o' Ho') as [d2 [Hd2 Hh2]].
      rewrite Eo, Ek in Hh1. rewrite Eo', Ek' in Hh2. exact (Hk d1 d2 f x k Hd1 Hd2 Hh1 Hh2). }
    rewrite map_length in H1. destruct (LK (schemas w c) f) as [|[i e] [|v r]] eqn:E; [contradiction| |cbn in H1; lia].
    cbn [rc] in Hp. destruct (vkind (i, e) =? k)%N eqn:Ev; [|lia]. apply N.eqb_eq in Ev. exists (fst e). split; [|exact Ev].
    unfold get_schema, latest_types_struct. apply in_flat_map. exists f. split.
    + assert (HL : listed (schemas w c) f = true) by (apply (I_listed _ _ HI); rewrite E; discriminate).
      unfold listed in HL. apply existsb_exists in HL as [g [Hg Eg]]. apply beqb_eq in Eg. subst. exact Hg.
    + rewrite versions_lk, E. cbn [rev app]. unfold is_alive. cbn [fst snd] in Hp. destruct (0 <? snd e)%N eqn:Ea; [left; reflexivity|].
      apply N.ltb_ge in Ea. lia.
Qed.
