(** Transactions on the metadata of tables: proofs. *)
From Verif Require Import Bytes Outcome ByteOrd OMap SDiffModel TrieModel CSchemaModel CatModel CatSpec CatProofs TxModel TxSpec.

(** The description a list of changes asks for, if any. *)
Fixpoint last_desc (l : list chg) (d : option bstr) : option bstr :=
  match l with
  | [] => d
  | OfColumns _ :: r => last_desc r d
  | OfDescription x :: r => last_desc r (Some x)
  end.
Lemma last_desc_snoc l c : forall d, last_desc (l ++ [c]) d = match c with OfColumns _ => last_desc l d | OfDescription x => Some x end.
Proof. induction l as [|y l IH]; intros d; [destruct c; reflexivity|]. destruct y; cbn; apply IH. Qed.
Lemma last_desc_value l : forall d d0, (match last_desc l d with Some x => x | None => d0 end) = description l (match d with Some x => x | None => d0 end).
Proof. induction l as [|y l IH]; intros d d0; [reflexivity|]. destruct y; cbn [last_desc]; rewrite IH; reflexivity. Qed.

Lemma of_columns_snoc l c : of_columns (l ++ [c]) = of_columns l ++ match c with OfColumns o => [o] | OfDescription _ => [] end.
Proof. unfold of_columns. rewrite flat_map_app. cbn. rewrite app_nil_r. reflexivity. Qed.
Lemma build_snoc os o : forall d, build (os ++ [o]) d = do d1 <- build os d; sop_do o d1.
Proof.
  induction os as [|x os IH]; intros d; cbn.
  - destruct (sop_do o d); reflexivity.
  - destruct (sop_do x d) as [d1|]; cbn; [apply IH|reflexivity].
Qed.

(** Every change of columns leaves something to apply. *)
Lemma minsert_some {V} k (v : V) m : nilb (minsert bcmp k v m) = false.
Proof. destruct m as [|[k' v'] m]; cbn; [reflexivity|]. destruct (bcmp k k'); reflexivity. Qed.
Lemma memplace_some {V} k (v : V) m : nilb (memplace bcmp k v m) = false.
Proof. unfold memplace. destruct (mfind bcmp k m) eqn:H; [|apply minsert_some]. destruct m; [discriminate|reflexivity]. Qed.
Lemma updates_change d u : nilb u = false -> has_changes (with_updates d u) = true.
Proof. intros H. unfold has_changes, with_updates. cbn. rewrite H. reflexivity. Qed.
Lemma sop_changes o d d' : sop_do o d = Ok d' -> has_changes d' = true.
Proof.
  destruct o as [n t r doc|n|n m|n t|n doc|n r]; cbn; intros H.
  - injection H as <-. unfold has_changes, add_column. cbn. destruct (added d); cbn; rewrite ?orb_true_r; reflexivity.
  - injection H as <-. unfold has_changes, delete_column. cbn [updates added deleted new_pk].
    replace (nilb (if mem_str n (deleted d) then deleted d else n :: deleted d)) with false; [cbn; rewrite ?orb_true_r; reflexivity|].
    destruct (deleted d) as [|x l]; [reflexivity|]. destruct (mem_str n (x :: l)); reflexivity.
  - injection H as <-. unfold rename_column. destruct (mfind bcmp n (updates d)).
    + apply updates_change, minsert_some.
    + unfold has_changes. cbn. rewrite memplace_some. reflexivity.
  - unfold update_type in H. destruct (mfind bcmp n (updates d)).
    + destruct (alias (u_ty i)); [|discriminate]. cbn in H. destruct (t_ext t); [discriminate|]. injection H as <-. apply updates_change, minsert_some.
    + injection H as <-. apply updates_change, memplace_some.
  - injection H as <-. unfold update_doc. destruct (mfind bcmp n (updates d)); apply updates_change; [apply minsert_some|apply memplace_some].
  - injection H as <-. unfold update_required. destruct (mfind bcmp n (updates d)); apply updates_change; [apply minsert_some|apply memplace_some].
Qed.
Lemma build_changes os d : build os no_diff = Ok d -> has_changes d = negb (nilb os).
Proof.
  destruct os as [|o os] using rev_ind; intros H; [injection H as <-; reflexivity|].
  rewrite build_snoc in H. destruct (build os no_diff) as [d1|]; [|discriminate]. cbn in H.
  rewrite (sop_changes _ _ _ H). destruct os; reflexivity.
Qed.

(** The recorded changes [(md, sd)] are those of [l]. *)
Definition holds (l : list chg) (md : mdiff) (sd : sdiff) : Prop :=
  md_schema md = no_diff /\ md_desc md = last_desc l None /\ build (of_columns l) no_diff = Ok sd.

Lemma holds_apply l md sd m : holds l md sd -> md_apply (MDiff sd (md_desc md)) m = changed l m.
Proof.
  intros [_ [H2 H3]]. unfold md_apply, changed, md_changes. cbn [md_schema md_desc]. rewrite H2.
  pose proof (last_desc_value l None (m_desc m)) as HD. cbn in HD.
  rewrite (build_changes _ _ H3). destruct (of_columns l) as [|o os] eqn:HC; cbn [nilb negb].
  - destruct (last_desc l None) as [x|]; cbn [negb rbind].
    + rewrite <- HD. reflexivity.
    + rewrite <- HD. destruct m. reflexivity.
  - rewrite H3. cbn [rbind]. rewrite <- HD. destruct (last_desc l None); reflexivity.
Qed.
Lemma holds_changes l md sd : holds l md sd -> md_changes (MDiff sd (md_desc md)) = negb (nilb l).
Proof.
  intros [_ [H2 H3]]. unfold md_changes. cbn [md_schema md_desc]. rewrite H2, (build_changes _ _ H3).
  assert (HL : forall l d, last_desc l d = None -> of_columns l = [] -> l = []).
  { clear. induction l as [|c l IH]; [reflexivity|]. destruct c; cbn; [discriminate|]. intros d1 H HC. exfalso.
    assert (forall l y, last_desc l (Some y) <> None).
    { clear. induction l as [|c l IH]; intros y; [discriminate|]. destruct c; cbn; apply IH. }
    eapply H0; exact H. }
  destruct (last_desc l None) eqn:HD.
  - destruct l; [discriminate|reflexivity].
  - destruct (of_columns l) as [|o os] eqn:HC.
    + rewrite (HL l None HD HC). reflexivity.
    + destruct l; [discriminate|reflexivity].
Qed.

Lemma nets_snoc os o : nets (os ++ [o]) = match nets os with Some x => net1 o x | None => None end.
Proof.
  unfold nets. generalize (@nil chg, @nil (bstr * list chg)). induction os as [|y os IH]; intros x; cbn.
  - destruct (net1 o x); reflexivity.
  - destruct (net1 y x); [apply IH|reflexivity].
Qed.
Lemma saved_snoc os o : saved (os ++ [o]) = saved os ++ match o with Save n => [n] | _ => [] end.
Proof. unfold saved. rewrite flat_map_app. cbn. rewrite app_nil_r. reflexivity. Qed.

Definition txrel (t : tx) (os : list top) : Prop :=
  x_state t = Active /\
  match nets os with
  | None => x_err t <> None
  | Some (l, ss) =>
      x_err t = None /\ holds l (x_md t) (x_sd t) /\
      (forall n, In n (saved os) <-> mfind bcmp n (x_saves t) <> None) /\
      (forall n l', In (n, l') ss -> exists md sd, mfind bcmp n (x_saves t) = Some (md, sd) /\ holds l' md sd) /\
      incl (map fst ss) (saved os)
  end.

Lemma upto_in n ss l r : upto n ss = Some (l, r) -> In (n, l) ss /\ incl r ss.
Proof.
  induction ss as [|[m k] ss IH]; [discriminate|]. cbn. destruct (beqb m n) eqn:HB.
  - intros H. injection H as <- <-. split; [left; f_equal; destruct (beq_dec m n); [assumption|discriminate]|apply incl_refl].
  - intros H. destruct (IH H) as [H1 H2]. split; [right; exact H1|]. intros x Hx. right. apply H2, Hx.
Qed.
Lemma upto_none n ss : upto n ss = None -> ~ In n (map fst ss).
Proof.
  induction ss as [|[m k] ss IH]; [intros _ []|]. cbn. destruct (beqb m n) eqn:HB; [discriminate|].
  intros H [E|Hn]; [|exact (IH H Hn)]. subst. destruct (beq_dec n n); [discriminate|contradiction].
Qed.

Lemma txrel_do t os o t' : txrel t os -> orderly1 os o -> tx_do t o = Ok t' ->
  txrel t' (os ++ [o]) /\ (x_err t' = None <-> nets (os ++ [o]) <> None).
Proof.
  intros [HA HN] HO HD. unfold txrel. rewrite nets_snoc. unfold tx_do, ensure_active in HD. unfold orderly1 in HO.
  destruct (nets os) as [[l ss]|] eqn:HE.
  - destruct HN as [N1 [N2 [N3 [N4 N5]]]]. rewrite N1, HA in HD. cbn [negb] in HD.
    destruct o as [o|d|n|n]; cbn [net1].
    + destruct (sop_do o (x_sd t)) as [d|] eqn:HS; [|discriminate]. cbn in HD. injection HD as <-. cbn [x_state x_md x_sd x_err x_saves].
      split; [|split; congruence]. split; [exact HA|]. split; [exact N1|].
      destruct N2 as [A1 [A2 A3]]. split; [|rewrite saved_snoc, app_nil_r; auto].
      split; [exact A1|]. rewrite last_desc_snoc, of_columns_snoc, build_snoc, A3. auto.
    + injection HD as <-. cbn [x_state x_md x_sd x_err x_saves md_schema md_desc].
      split; [|split; congruence]. split; [exact HA|]. split; [exact N1|].
      destruct N2 as [A1 [A2 A3]]. split; [|rewrite saved_snoc, app_nil_r; auto].
      split; [exact A1|]. rewrite last_desc_snoc, of_columns_snoc, app_nil_r. auto.
    + injection HD as <-. cbn [x_state x_md x_sd x_err x_saves].
      split; [|split; congruence]. split; [exact HA|]. split; [exact N1|]. split; [exact N2|].
      assert (HF : mfind bcmp n (x_saves t) = None).
      { destruct (mfind bcmp n (x_saves t)) eqn:HF; [|reflexivity]. exfalso. apply HO. apply N3. congruence. }
      assert (HM : forall n', mfind bcmp n' (memplace bcmp n (x_md t, x_sd t) (x_saves t)) =
                if beqb n' n then Some (x_md t, x_sd t) else mfind bcmp n' (x_saves t)).
      { intros n'. unfold memplace. rewrite HF. destruct (beq_dec n' n) as [->|Hne].
        - apply (mfind_insert_same bcmp bcmp_eq).
        - apply (mfind_insert_other bcmp bcmp_eq), Hne. }
      rewrite saved_snoc. split; [|split].
      * intros n'. rewrite HM, in_app_iff, N3. cbn [In]. destruct (beq_dec n' n) as [->|Hne].
        -- split; [discriminate|auto].
        -- split; [intros [H|[H|[]]]; [exact H|congruence]|auto].
      * intros n' l' [H|H].
        -- injection H as <- <-. rewrite HM. destruct (beq_dec n n); [|contradiction]. eauto.
        -- rewrite HM. destruct (beq_dec n' n) as [->|Hne]; [|exact (N4 _ _ H)].
           exfalso. apply HO, N5. apply (in_map fst) in H. exact H.
      * cbn. intros x [<-|H]; apply in_app_iff; [right; left; reflexivity|left; apply N5, H].
    + rewrite saved_snoc, app_nil_r. destruct (upto n ss) as [[l' r]|] eqn:HU.
      * destruct (upto_in _ _ _ _ HU) as [U1 U2]. destruct (N4 _ _ U1) as [md [sd [F1 F2]]]. rewrite F1 in HD. injection HD as <-.
        cbn [x_state x_md x_sd x_err x_saves]. split; [|split; congruence]. split; [exact HA|]. split; [exact N1|].
        split; [exact F2|]. split; [exact N3|]. split.
        -- intros n' k Hk. apply N4, U2, Hk.
        -- intros x Hx. apply N5. apply in_map_iff in Hx. destruct Hx as [y [<- Hy]]. apply in_map, U2, Hy.
      * assert (HF : mfind bcmp n (x_saves t) = None).
        { destruct (mfind bcmp n (x_saves t)) eqn:HF; [|reflexivity]. exfalso. apply (upto_none _ _ HU).
          apply (HO (proj2 (N3 n) ltac:(congruence)) l ss eq_refl). }
        rewrite HF in HD. injection HD as <-. cbn. split; [split; [exact HA|discriminate]|split; [discriminate|congruence]].
  - destruct (x_err t) as [e|] eqn:HX; [|congruence]. cbn in HD. injection HD as <-. rewrite HX.
    split; [split; [exact HA|discriminate]|split; [discriminate|congruence]].
Qed.

Definition fin (b : scope) : Prop :=
  (c_open b = false \/ c_committed b || c_aborted b = true) /\ (x_state (c_tx b) <> Active \/ x_err (c_tx b) <> None).
Definition brel (b : scope) (a : atx) : Prop :=
  match a with
  | Open p n os =>
      c_committed b = false /\ c_aborted b = false /\ c_open b = true /\ c_path b = p /\ c_name b = n /\
      c_err b = None /\ txrel (c_tx b) os
  | Finished => fin b
  end.

Lemma fin_do b o : fin b -> exists t, tx_do (c_tx b) o = Ok t /\ x_err t <> None /\ fin (with_tx b t).
Proof.
  intros [H1 H2]. unfold tx_do, ensure_active. destruct (x_err (c_tx b)) as [e|] eqn:HX.
  - exists (c_tx b). cbn. split; [reflexivity|]. split; [congruence|]. split; [exact H1|]. right. cbn. congruence.
  - destruct H2 as [H2|H2]; [|congruence]. destruct (x_state (c_tx b)) eqn:HS; [congruence| |].
    all: eexists; cbn; split; [reflexivity|]; split; [discriminate|]; split; [exact H1|right; discriminate].
Qed.
Lemma fin_abort b : fin b -> fin (abort b).
Proof.
  intros [H1 H2]. unfold abort. destruct (c_committed b) eqn:HC; [|destruct (c_aborted b) eqn:HA].
  - split; [right; reflexivity|exact H2].
  - split; [right; rewrite HA, orb_true_r; reflexivity|exact H2].
  - split; [right; reflexivity|]. cbn. destruct H2 as [H2|H2]; [left|right; exact H2]. destruct (x_state (c_tx b)); congruence.
Qed.
Lemma fin_commit c b : fin b -> exists b' e, commit c b = Ok (c, b', false) /\ c_err b' = Some e /\ fin b'.
Proof.
  intros [H1 H2]. unfold commit.
  assert (HE : exists e, (if c_open b then if c_committed b || c_aborted b then Some Finalized else c_err b else Some CommitFailed) = Some e).
  { destruct H1 as [HO|HO]; rewrite HO; [|destruct (c_open b)]; eauto. }
  destruct HE as [e ->].
  match goal with |- exists b' e', Ok (_, ?x, _) = _ /\ _ => set (s1 := x); assert (HE : exists e', c_err s1 = Some e') end.
  { unfold s1, abort. cbn. destruct (c_committed b); [eexists; reflexivity|]. destruct (c_aborted b); eexists; reflexivity. }
  destruct HE as [e' HE]. exists s1, e'. split; [reflexivity|]. split; [exact HE|].
  unfold s1. apply fin_abort. split; [exact H1|exact H2].
Qed.
Lemma open_abort b : c_committed b = false -> c_aborted b = false -> c_err (abort b) = c_err b /\ fin (abort b).
Proof.
  intros H1 H2. unfold abort. rewrite H1, H2. split; [reflexivity|]. split; [right; reflexivity|].
  cbn. left. destruct (x_state (c_tx b)); discriminate.
Qed.

Section World.
  Notation R := (@CatProofs.R meta).

  Lemma R_commit c w p n m i : R c w -> get_info c p = Ok i -> mfind bcmp n (tables i) = Some m -> forall m',
    t_at w Regular p n = Some m /\
    R (upd_info c p (fun i => set_map Regular (minsert bcmp n m' (tables i)) i)) (t_set w Regular p n (Some m')).
  Proof.
    intros HR HI HM m'. pose proof (R_info _ _ p HR) as HP. destruct (w p) as [t|] eqn:Hw; [|congruence].
    destruct HP as [i' [HI' [S1 [S2 S3]]]]. assert (i' = i) by congruence. subst i'.
    assert (HT : t_at w Regular p n = Some m) by (unfold t_at; rewrite Hw, <- S3; exact HM).
    split; [exact HT|].
    apply (R_weq _ (t_put w Regular p (fun n' => if beqb n' n then Some m' else t_at w Regular p n'))).
    - apply (R_put c w Regular p _ (minsert bcmp n m')); [exact HR|unfold there; rewrite Hw; reflexivity|reflexivity|].
      intros l Hl HE. split; [apply (msorted_insert bcmp bcmp_eq bcmp_sym bcmp_trans), Hl|].
      intros n'. destruct (beq_dec n' n) as [->|Hne].
      + apply (mfind_insert_same bcmp bcmp_eq).
      + rewrite (mfind_insert_other bcmp bcmp_eq); [apply HE|exact Hne].
    - intros q. unfold t_put, t_set. destruct (w q) as [tq|] eqn:Hq; [|exact I].
      intros k n'. destruct (path_eqb_spec q p) as [->|Hqp]; [|reflexivity]. cbn [andb].
      destruct (kind_eqb_spec k Regular) as [->|]; [|reflexivity]. cbn [andb].
      destruct (beqb n' n); [reflexivity|]. unfold t_at. rewrite Hw in Hq. injection Hq as <-. rewrite Hw. reflexivity.
  Qed.

  (** Committing an open transaction. *)
  Lemma open_commit c w b p n os c' b' threw : R c w -> brel b (Open p n os) -> commit c b = Ok (c', b', threw) -> threw = false ->
    fin b' /\
    match nets os with
    | None => c' = c /\ c_err b' <> None
    | Some ([], _) => c' = c /\ c_err b' = None
    | Some (l, _) =>
        match t_at w Regular p n with
        | None => c' = c /\ c_err b' <> None
        | Some m => exists m', changed l m = Ok m' /\ R c' (t_set w Regular p n (Some m')) /\ c_err b' = None
        end
    end.
  Proof.
    intros HR [B1 [B2 [B3 [B4 [B5 [B6 [T1 T2]]]]]]] HC HT. subst threw. unfold commit in HC. rewrite B1, B2, B3, B6 in HC. cbn [orb] in HC.
    unfold tx_commit, ensure_active in HC. rewrite T1 in HC.
    destruct (nets os) as [[l ss]|] eqn:HN.
    - destruct T2 as [T2 [T3 _]]. rewrite T2 in HC. cbn [negb] in HC. rewrite (holds_changes _ _ _ T3) in HC.
      destruct l as [|x l]; cbn [nilb negb] in HC.
      + cbn in HC. injection HC as <- <-. split; [|split; reflexivity]. split; [right; reflexivity|left; discriminate].
      + rewrite B4, B5 in HC. unfold apply_to in HC. pose proof (R_info _ _ p HR) as HP. unfold t_at at 1. destruct (w p) as [t|] eqn:Hw.
        * destruct HP as [i [HI [S1 [S2 S3]]]]. rewrite HI in HC. destruct (mfind bcmp n (tables i)) as [m|] eqn:HM.
          -- change (mfind bcmp n (get_map Regular i) = Some m) in HM. rewrite S3 in HM. rewrite HM.
             change (t Regular n = Some m) in HM. rewrite <- S3 in HM. cbn [get_map] in HM.
             rewrite (holds_apply _ _ _ m T3) in HC. destruct (changed (x :: l) m) as [m'|]; [|discriminate]. cbn in HC.
             injection HC as <- <-. split; [split; [right; reflexivity|left; discriminate]|].
             exists m'. split; [reflexivity|]. split; [|reflexivity]. exact (proj2 (R_commit _ _ _ _ _ _ HR HI HM m')).
          -- change (mfind bcmp n (get_map Regular i) = None) in HM. rewrite S3 in HM. rewrite HM.
             cbn in HC. injection HC as <- <-. split; [|split; [reflexivity|unfold abort; cbn; rewrite ?B2; discriminate]].
             split; [right; reflexivity|right; cbn; congruence].
        * rewrite HP in HC. cbn in HC. congruence.
    - destruct (x_err (c_tx b)) as [e|] eqn:HX; [|congruence]. cbn in HC. rewrite HX in HC. injection HC as <- <-.
      split; [|split; [reflexivity|unfold abort; cbn; discriminate]]. split; [right; reflexivity|right; cbn; congruence].
  Qed.

  Lemma forall2_set {A B} (P : A -> B -> Prop) l1 l2 i x y : Forall2 P l1 l2 -> P x y -> Forall2 P (set_nth i x l1) (set_nth i y l2).
  Proof.
    intros H HP. revert i. induction H as [|a b l1 l2 H1 H2 IH]; intros i; destruct i; cbn [set_nth]; constructor; auto.
  Qed.
  Lemma forall2_nth {A B} (P : A -> B -> Prop) l1 l2 i : Forall2 P l1 l2 ->
    match nth_error l1 i, nth_error l2 i with Some x, Some y => P x y | None, None => True | _, _ => False end.
  Proof. intros H. revert i. induction H; intros [|i]; cbn; [exact I|exact I|assumption|apply IHForall2]. Qed.
  Lemma set_same {A} (l : list A) : forall i x, nth_error l i = Some x -> set_nth i x l = l.
  Proof. induction l as [|y l IH]; intros [|i] x; cbn; [discriminate|discriminate|congruence|]. intros H. rewrite IH; auto. Qed.
  Lemma set_none {A} (l : list A) : forall i (x : A), nth_error l i = None -> set_nth i x l = l.
  Proof. induction l as [|y l IH]; intros [|i] x; cbn; try reflexivity; [discriminate|]. intros H. rewrite IH; auto. Qed.

  Record srel (s : state) (a : astate) : Prop := {
    sr_world : R (s_cat s) (a_world a);
    sr_txs : Forall2 brel (s_open s) (a_txs a)
  }.

  Lemma step_rel s a e s' x : srel s a -> step s e = Ok (s', x) -> smooth x ->
    match e with Do i o => match nth_error (a_txs a) i with Some (Open _ _ os) => orderly1 os o | _ => True end | _ => True end ->
    srel s' (fst (astep a e)) /\ meets x (snd (astep a e)).
  Proof.
    intros [HR HB] HS HX HO. destruct s as [c bs], a as [w ts]. cbn [s_cat s_open a_world a_txs] in *.
    destruct e as [o|p n|i o|i|i]; cbn [step astep s_cat s_open a_world a_txs] in *.
    - destruct (cstep c o) as [c' [y m]] eqn:HC. injection HS as <- <-.
      destruct (step_R _ _ _ _ _ HR HC) as [R1 R2]; [cbn in *; destruct y; try discriminate; contradiction|].
      destruct (wstep w o) as [w' m'] eqn:HW. cbn in *. subst m'. split; [constructor; assumption|eauto].
    - injection HS as <- <-. unfold begin. rewrite (R_texists _ _ _ _ _ HR). destruct (t_at w Regular p n) as [m|]; cbn [fst snd].
      + split; [|reflexivity]. constructor; [exact HR|]. cbn. apply Forall2_app; [exact HB|]. constructor; [|constructor].
        cbn [brel]. do 6 (split; [reflexivity|]). split; [reflexivity|]. cbn. split; [reflexivity|].
        split; [repeat split|]. split; [intros n0; split; [intros []|congruence]|]. split; [intros n0 l0 []|intros x []].
      + split; [|eexists; reflexivity]. constructor; [exact HR|]. cbn. apply Forall2_app; [exact HB|]. constructor; [|constructor].
        split; [left; reflexivity|right; discriminate].
    - pose proof (forall2_nth _ _ _ i HB) as HN. destruct (nth_error bs i) as [b|] eqn:Hb, (nth_error ts i) as [t|] eqn:Ht; try contradiction.
      + destruct t as [p n os|].
        * destruct (tx_do (c_tx b) o) as [t|] eqn:HD; [|discriminate]. cbn in HS. injection HS as <- <-.
          destruct HN as [B1 [B2 [B3 [B4 [B5 [B6 B7]]]]]]. destruct (txrel_do _ _ _ _ B7 HO HD) as [T1 T2]. split.
          -- constructor; [exact HR|]. cbn. apply forall2_set; [exact HB|]. cbn. auto 10.
          -- cbn. destruct (nets (os ++ [o])); cbn; [f_equal; apply T2; discriminate|].
             destruct (x_err t) as [e|]; [eauto|]. exfalso. apply (proj1 T2 eq_refl). reflexivity.
        * destruct (fin_do b o HN) as [t [HD [E F]]]. rewrite HD in HS. cbn in HS. injection HS as <- <-. cbn. split.
          -- constructor; [exact HR|]. cbn. rewrite <- (set_same ts i Finished Ht). apply forall2_set; [exact HB|exact F].
          -- destruct (x_err t) as [e|]; [eauto|congruence].
      + injection HS as <- <-. split; [constructor; assumption|exact I].
    - pose proof (forall2_nth _ _ _ i HB) as HN. destruct (nth_error bs i) as [b|] eqn:Hb, (nth_error ts i) as [t|] eqn:Ht; try contradiction.
      + destruct t as [p n os|].
        * destruct (commit c b) as [[[c' b'] threw]|] eqn:HC; [|discriminate]. cbn in HS. injection HS as <- <-.
          destruct threw; [contradiction|].
          destruct (open_commit _ w _ _ _ _ _ _ _ HR HN HC eq_refl) as [F HT].
          assert (HB' : Forall2 brel (set_nth i b' bs) (set_nth i Finished ts)) by (apply forall2_set; [exact HB|exact F]).
          destruct (nets os) as [[[|x l] ss]|].
          -- destruct HT as [-> HE]. split; [constructor; assumption|]. cbn. rewrite HE. reflexivity.
          -- destruct (t_at w Regular p n) as [m|].
             ++ destruct HT as [m' [HM [HR' HE]]]. rewrite HM. split; [constructor; assumption|]. cbn. rewrite HE. reflexivity.
             ++ destruct HT as [-> HE]. split; [constructor; assumption|]. cbn. destruct (c_err b') as [e|]; [eauto|congruence].
          -- destruct HT as [-> HE]. split; [constructor; assumption|]. cbn. destruct (c_err b') as [e|]; [eauto|congruence].
        * destruct (fin_commit c b HN) as [b' [e [HC [HE F]]]]. rewrite HC in HS. cbn in HS. injection HS as <- <-. split.
          -- constructor; [exact HR|]. cbn. rewrite <- (set_same ts i Finished Ht). apply forall2_set; [exact HB|exact F].
          -- cbn. rewrite HE. eauto.
      + injection HS as <- <-. split; [constructor; assumption|exact I].
    - pose proof (forall2_nth _ _ _ i HB) as HN. destruct (nth_error bs i) as [b|] eqn:Hb, (nth_error ts i) as [t|] eqn:Ht; try contradiction.
      + injection HS as <- <-. split; [|exact I]. constructor; [exact HR|]. cbn. apply forall2_set; [exact HB|]. cbn.
        destruct t as [p n os|]; [|apply fin_abort, HN]. destruct HN as [B1 [B2 _]]. apply open_abort; assumption.
      + injection HS as <- <-. split; [|exact I]. constructor; [exact HR|]. cbn. rewrite set_none; assumption.
  Qed.

  Lemma run_rel es : forall s a s' xs, srel s a -> run s es = Ok (s', xs) -> Forall smooth xs -> orderly a es ->
    srel s' (fst (arun a es)) /\ Forall2 meets xs (snd (arun a es)).
  Proof.
    induction es as [|e es IH]; intros s a s' xs HS HR HX HO; cbn in HR.
    - injection HR as <- <-. split; [exact HS|constructor].
    - destruct (step s e) as [[s1 x]|] eqn:H1; [|discriminate]. cbn in HR.
      destruct (run s1 es) as [[s2 ys]|] eqn:H2; [|discriminate]. cbn in HR. injection HR as <- <-.
      inversion HX as [|? ? X1 X2]; subst. destruct HO as [O1 O2].
      destruct (step_rel _ _ _ _ _ HS H1 X1 O1) as [S1 M1]. destruct (IH _ _ _ _ S1 H2 X2 O2) as [S2 M2].
      cbn [arun]. destruct (astep a e) as [a1 y]. cbn [fst snd] in *. destruct (arun a1 es) as [a2 zs]. cbn [fst snd] in *.
      split; [exact S2|constructor; assumption].
  Qed.

  Lemma start_rel : srel start astart.
  Proof. constructor; [apply R_empty|constructor]. Qed.

  (** What a caller can see of the catalogue. *)
  Lemma c36_history es s xs : run start es = Ok (s, xs) -> Forall smooth xs -> orderly astart es ->
    Forall2 meets xs (snd (arun astart es)) /\
    let w := a_world (fst (arun astart es)) in
    (forall p, ns_exists (s_cat s) p = there w p) /\
    (forall p n m, t_at w Regular p n = Some m -> get_table_schema (s_cat s) p n = Ok m) /\
    (forall k p n, table_exists k (s_cat s) p n = match t_at w k p n with Some _ => true | None => false end).
  Proof.
    intros HR HX HO. destruct (run_rel es _ _ _ _ start_rel HR HX HO) as [[S1 S2] S3]. split; [exact S3|]. cbn zeta.
    split; [intros p; apply R_exists; exact S1|]. split.
    - intros p n m. apply R_schema, S1.
    - intros k p n. apply R_texists, S1.
  Qed.
End World.

(** Nothing changes the catalogue but a call on it and a commit. *)
Lemma quiet s e s' x : step s e = Ok (s', x) ->
  match e with Cat _ | Commit _ => True | _ => s_cat s' = s_cat s end.
Proof.
  destruct e as [o|p n|i o|i|i]; cbn; intros H; try exact I.
  - injection H as <- <-. reflexivity.
  - destruct (nth_error (s_open s) i) as [b|]; [|injection H as <- <-; reflexivity].
    destruct (tx_do (c_tx b) o); [|discriminate]. injection H as <- <-. reflexivity.
  - destruct (nth_error (s_open s) i) as [b|]; injection H as <- <-; reflexivity.
Qed.

(** A commit that reports an error, or throws, changes nothing. *)
Lemma failed_commit c b c' b' threw : commit c b = Ok (c', b', threw) -> threw = true \/ c_err b' <> None -> c' = c.
Proof.
  intros H HF. unfold commit in H. destruct (if c_open b then _ else _) as [e|]; [injection H as <- <- <-; reflexivity|].
  destruct (tx_commit c (c_path b) (c_name b) (c_tx b)) as [[[c1 t] th]|] eqn:HT; [|discriminate]. cbn in H.
  assert (HC : th = true \/ x_err t <> None -> c1 = c).
  { unfold tx_commit in HT. destruct (ensure_active (c_tx b)) as [t1 ok]. destruct ok; cbn [negb] in HT; [|injection HT as <- <- <-; reflexivity].
    destruct (md_changes _); [|injection HT as <- <- <-; reflexivity].
    destruct (apply_to _ _ _ _) as [[c2| |]|]; cbn in HT; [| | |discriminate]; injection HT as <- <- <-; cbn; try reflexivity.
    intros [H0|H0]; [discriminate|congruence]. }
  destruct th.
  - injection H as <- <- <-. apply HC. left. reflexivity.
  - destruct (x_err t) as [e|] eqn:HE.
    + injection H as <- <- <-. apply HC. right. discriminate.
    + injection H as <- <- <-. cbn in HF. destruct HF as [H0|H0]; [discriminate|congruence].
Qed.

(** A finished transaction. *)
Lemma commit_done c b c' b' threw : commit c b = Ok (c', b', threw) -> threw = false -> done b'.
Proof.
  intros H ->. unfold commit in H.
  assert (HA : forall s, done (abort s)).
  { intros s. unfold abort, done. destruct (c_committed s) eqn:H1; [left; reflexivity|]. destruct (c_aborted s) eqn:H2; right; [exact H2|reflexivity]. }
  destruct (if c_open b then _ else _) as [e|]; [injection H as <- <-; apply HA|].
  destruct (tx_commit c (c_path b) (c_name b) (c_tx b)) as [[[c1 t] th]|] eqn:HT; [|discriminate]. cbn in H.
  destruct th; [discriminate|]. destruct (x_err t); injection H as <- <-; [apply HA|left; reflexivity].
Qed.

(** A transaction of its own, from beginning to end. *)
Lemma run_app es1 : forall es2 s, run s (es1 ++ es2) = do '(s1, xs) <- run s es1; do '(s2, ys) <- run s1 es2; Ok (s2, xs ++ ys).
Proof.
  induction es1 as [|e es1 IH]; intros es2 s; cbn [app run].
  - cbn. destruct (run s es2) as [[s2 ys]|]; reflexivity.
  - destruct (step s e) as [[s1 x]|]; [|reflexivity]. cbn. rewrite IH. destruct (run s1 es1) as [[s2 xs]|]; [|reflexivity]. cbn.
    destruct (run s2 es2) as [[s3 ys]|]; reflexivity.
Qed.
Lemma set_set {A} (l : list A) : forall i x y, set_nth i y (set_nth i x l) = set_nth i y l.
Proof. induction l as [|z l IH]; intros [|i] x y; cbn; try reflexivity. rewrite IH. reflexivity. Qed.
Lemma nth_set_same {A} (l : list A) : forall i x y, nth_error l i = Some y -> nth_error (set_nth i x l) i = Some x.
Proof. induction l as [|z l IH]; intros [|i] x y; cbn; try discriminate; [reflexivity|]. apply IH. Qed.

Lemma do_all i os : forall s b d, nth_error (s_open s) i = Some b -> x_state (c_tx b) = Active -> x_err (c_tx b) = None ->
  build os (x_sd (c_tx b)) = Ok d ->
  let t' := Tx Active (x_md (c_tx b)) d None (x_saves (c_tx b)) in
  exists xs, run s (map (fun o => Do i (Change o)) os) = Ok (State (s_cat s) (set_nth i (with_tx b t') (s_open s)), xs) /\
    Forall (fun x => x = RErr None) xs.
Proof.
  induction os as [|o os IH]; intros s b d Hb HA HE HD; cbn in HD.
  - injection HD as <-. exists []. split; [|constructor]. cbn. destruct s as [c bs]. f_equal. f_equal. f_equal. cbn in *.
    rewrite set_same; [reflexivity|]. rewrite Hb. f_equal. destruct b as [b1 b2 b3 b4 b5 b6 t]. unfold with_tx. cbn in *. f_equal. destruct t. cbn in *. congruence.
  - destruct (sop_do o (x_sd (c_tx b))) as [d1|] eqn:HS; [|discriminate]. cbn in HD.
    set (t1 := Tx Active (x_md (c_tx b)) d1 None (x_saves (c_tx b))).
    assert (H1 : step s (Do i (Change o)) = Ok (State (s_cat s) (set_nth i (with_tx b t1) (s_open s)), RErr None)).
    { cbn. rewrite Hb. unfold tx_do, ensure_active. rewrite HE, HA. cbn [negb]. rewrite HS. cbn. rewrite HA, HE. reflexivity. }
    destruct (IH (State (s_cat s) (set_nth i (with_tx b t1) (s_open s))) (with_tx b t1) d) as [xs [H2 H3]]; try reflexivity.
    { exact (nth_set_same _ _ _ _ Hb). }
    { exact HD. }
    exists (RErr None :: xs). cbn [map run]. rewrite H1. cbn [rbind]. rewrite H2. cbn [rbind s_open s_cat]. rewrite set_set. split; [reflexivity|].
    constructor; [reflexivity|exact H3].
Qed.

(** Finished transactions stay finished. *)
Definition shut (b : scope) : Prop := done b -> x_state (c_tx b) <> Active \/ x_err (c_tx b) <> None.
Lemma shut_fin b : shut b -> done b -> fin b.
Proof. intros H HD. split; [right; destruct HD as [-> | ->]; rewrite ?orb_true_r; reflexivity|exact (H HD)]. Qed.
Lemma shut_abort b : shut b -> shut (abort b).
Proof.
  intros H. unfold abort, shut, done in *. destruct (c_committed b) eqn:HC; cbn.
  - intros _. apply H. auto.
  - destruct (c_aborted b) eqn:HA; cbn.
    + intros _. apply H. auto.
    + intros _. left. destruct (x_state (c_tx b)); discriminate.
Qed.
Lemma shut_do b o t : shut b -> tx_do (c_tx b) o = Ok t -> shut (with_tx b t).
Proof.
  intros H HD. unfold shut, done in *. cbn. intros Hd. specialize (H Hd). unfold tx_do, ensure_active in HD.
  destruct (x_err (c_tx b)) as [e|] eqn:HE.
  - cbn in HD. injection HD as <-. right. congruence.
  - destruct H as [H|H]; [|congruence]. destruct (x_state (c_tx b)) eqn:HS; [congruence| |]; cbn in HD; injection HD as <-; right; discriminate.
Qed.
Lemma shut_commit c b c' b' threw : shut b -> commit c b = Ok (c', b', threw) -> shut b'.
Proof.
  intros H HC. unfold commit in HC.
  destruct (c_open b) eqn:HO.
  2:{ injection HC as <- <- <-. apply shut_abort. exact H. }
  destruct (c_committed b || c_aborted b) eqn:HD.
  { injection HC as <- <- <-. apply shut_abort. exact H. }
  apply orb_false_iff in HD. destruct HD as [D1 D2]. destruct (c_err b) as [e|].
  { injection HC as <- <- <-. apply shut_abort. exact H. }
  destruct (tx_commit c (c_path b) (c_name b) (c_tx b)) as [[[c1 t] th]|] eqn:HT; [|discriminate]. cbn in HC.
  destruct th; [|destruct (x_err t) as [e|] eqn:HE]; injection HC as <- <- <-.
  - intros [Hd|Hd]; cbn in Hd; congruence.
  - apply shut_abort. intros _. right. cbn. congruence.
  - intros _. left. cbn. unfold tx_commit in HT. destruct (ensure_active (c_tx b)) as [t1 ok] eqn:HA.
    destruct ok; cbn [negb] in HT.
    + destruct (md_changes _); [|injection HT as <- <-; discriminate].
      destruct (apply_to _ _ _ _) as [[c2| |]|]; cbn in HT; [| | |discriminate]; try discriminate; injection HT as <- <-; discriminate.
    + injection HT as <- <-. unfold ensure_active in HA. destruct (x_err (c_tx b)) eqn:HX; [injection HA as <-; congruence|].
      destruct (x_state (c_tx b)); injection HA as <-; discriminate.
Qed.
Lemma forall_set {A} (P : A -> Prop) l : forall i x, Forall P l -> P x -> Forall P (set_nth i x l).
Proof. induction l as [|y l IH]; intros [|i] x H Hx; cbn; auto; inversion H; subst; constructor; auto. Qed.
Lemma shut_step s e s' x : Forall shut (s_open s) -> step s e = Ok (s', x) -> Forall shut (s_open s').
Proof.
  intros H HS. destruct e as [o|p n|i o|i|i]; cbn in HS.
  - destruct (cstep (s_cat s) o) as [c' [y m]]. injection HS as <- <-. exact H.
  - injection HS as <- <-. cbn. apply Forall_app. split; [exact H|]. constructor; [|constructor].
    unfold begin, shut, done. destruct (table_exists _ _ _ _); cbn; intros [D|D]; discriminate.
  - destruct (nth_error (s_open s) i) as [b|] eqn:Hb; [|injection HS as <- <-; exact H].
    destruct (tx_do (c_tx b) o) as [t|] eqn:HD; [|discriminate]. cbn in HS. injection HS as <- <-.
    cbn. apply forall_set; [exact H|]. apply (shut_do _ o); [|exact HD]. rewrite Forall_forall in H. apply H, (nth_error_In _ _ Hb).
  - destruct (nth_error (s_open s) i) as [b|] eqn:Hb; [|injection HS as <- <-; exact H].
    destruct (commit (s_cat s) b) as [[[c' b'] threw]|] eqn:HC; [|discriminate]. cbn in HS. injection HS as <- <-.
    cbn. apply forall_set; [exact H|]. apply (shut_commit _ _ _ _ _ ltac:(rewrite Forall_forall in H; apply H, (nth_error_In _ _ Hb)) HC).
  - destruct (nth_error (s_open s) i) as [b|] eqn:Hb; injection HS as <- <-; [|exact H].
    cbn. apply forall_set; [exact H|]. apply shut_abort. rewrite Forall_forall in H. apply H, (nth_error_In _ _ Hb).
Qed.
Lemma shut_run es : forall s s' xs, Forall shut (s_open s) -> run s es = Ok (s', xs) -> Forall shut (s_open s').
Proof.
  induction es as [|e es IH]; intros s s' xs H HR; cbn in HR; [injection HR as <- <-; exact H|].
  destruct (step s e) as [[s1 x]|] eqn:H1; [|discriminate]. cbn in HR. destruct (run s1 es) as [[s2 ys]|] eqn:H2; [|discriminate].
  injection HR as <- <-. exact (IH _ _ _ (shut_step _ _ _ _ H H1) H2).
Qed.

Lemma abort_done b : done (abort b).
Proof. unfold abort, done. destruct (c_committed b) eqn:H1; [left; reflexivity|]. destruct (c_aborted b) eqn:H2; right; [exact H2|reflexivity]. Qed.

Lemma c36_finished es s xs i b : run start es = Ok (s, xs) -> nth_error (s_open s) i = Some b -> done b ->
  forall e, (exists o, e = Do i o) \/ e = Commit i ->
  exists s' m b', step s e = Ok (s', RErr (Some m)) /\ s_cat s' = s_cat s /\ nth_error (s_open s') i = Some b' /\ done b'.
Proof.
  intros HR Hb Hd e He. assert (HS : shut b).
  { pose proof (shut_run es start s xs ltac:(constructor) HR) as H. rewrite Forall_forall in H. apply H, (nth_error_In _ _ Hb). }
  pose proof (shut_fin _ HS Hd) as HF. destruct He as [[o ->]| ->]; cbn; rewrite Hb.
  - destruct (fin_do b o HF) as [t [-> [HE _]]]. cbn. destruct (x_err t) as [m|]; [|congruence].
    eexists _, m, _. split; [reflexivity|]. split; [reflexivity|]. split; [exact (nth_set_same _ _ _ _ Hb)|exact Hd].
  - destruct (fin_commit (s_cat s) b HF) as [b' [m [HC [HE _]]]]. rewrite HC. cbn. rewrite HE.
    eexists _, m, b'. split; [reflexivity|]. split; [reflexivity|]. split; [exact (nth_set_same _ _ _ _ Hb)|exact (commit_done _ _ _ _ _ HC eq_refl)].
Qed.
Lemma c36_finishes s e i s' r b : nth_error (s_open s) i = Some b -> step s e = Ok (s', r) -> e = Commit i \/ e = Abort i -> r <> RThrow ->
  exists b', nth_error (s_open s') i = Some b' /\ done b'.
Proof.
  intros Hb HS [-> | ->] Hr; cbn in HS; rewrite Hb in HS.
  - destruct (commit (s_cat s) b) as [[[c' b'] threw]|] eqn:HC; [|discriminate]. cbn in HS. injection HS as <- <-.
    destruct threw; [congruence|]. exists b'. split; [exact (nth_set_same _ _ _ _ Hb)|exact (commit_done _ _ _ _ _ HC eq_refl)].
  - injection HS as <- <-. exists (abort b). split; [exact (nth_set_same _ _ _ _ Hb)|apply abort_done].
Qed.
Lemma c36_failed s i s' r : step s (Commit i) = Ok (s', r) -> r <> RErr None -> s_cat s' = s_cat s.
Proof.
  cbn. destruct (nth_error (s_open s) i) as [b|]; [|intros H; injection H as <- <-; reflexivity].
  destruct (commit (s_cat s) b) as [[[c' b'] threw]|] eqn:HC; [|discriminate]. cbn. intros H. injection H as <- <-. intros HN.
  cbn. apply (failed_commit _ _ _ _ _ HC). destruct threw; [left; reflexivity|right]. destruct (c_err b'); congruence.
Qed.
