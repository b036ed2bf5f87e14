(** Proofs about grouping of tables. *)
From Verif Require Import Bytes Outcome ByteOrd IndexModel QueryModel LValModel TblModel TblSpec TblProofs TAggModel TAggSpec TAggProofs.
From Verif Require LValSpec LValProofs.
From Coq Require Import ZArith Permutation Sorted Lia.
Local Open Scope nat_scope.

Section Group.
  Variables (c : chunk) (keys : list (list byte * list byte)).
  Hypothesis T : table c.
  Hypothesis N : no_nulls c.
  Notation cs := (cols c).
  Notation fs := (map snd keys).
  Hypothesis KF : forall f, In f fs -> lookup beqb f cs <> None.
  Notation same := (same_key cs fs).

  Definition kr (row : trow) : list (list byte * lval) := map (fun nf => (fst nf, get (snd nf) (ar cs row))) keys.
  Lemma key_get row f : good cs row -> In f fs -> exists v t, lookup beqb f cs = Some t /\ cell_of cs row f = Some (Some v) /\ cell_ok t (Some v) /\ get f (ar cs row) = v.
  Proof.
    intros G I. destruct (lookup beqb f cs) as [t|] eqn:L; [|exfalso; apply (KF f I); exact L].
    destruct (good_get _ _ _ _ G L) as (v & E & K & GE & _). exists v, t. auto.
  Qed.
  Lemma key_row_ok row : good cs row -> key_row keys (ar cs row) = Some (kr row).
  Proof.
    intros G. unfold kr. assert (H : forall l, incl (map snd l) fs -> key_row l (ar cs row) = Some (map (fun nf => (fst nf, get (snd nf) (ar cs row))) l)); [|apply H, incl_refl].
    induction l as [|[n f] l IH]; intros I; [reflexivity|]. cbn [key_row map fst snd] in *.
    destruct (key_get row f G) as (v & t & L & E & K & GE); [apply I; left; reflexivity|]. rewrite GE.
    rewrite IH by (intros x J; apply I; right; exact J). destruct v; [destruct K| |]; reflexivity.
  Qed.
  Lemma kr_eqb a b : good cs a -> good cs b -> row_eqb (kr a) (kr b) = same a b.
  Proof.
    intros A B. unfold kr, same_key.
    assert (H : forall l, incl (map snd l) fs -> row_eqb (map (fun nf => (fst nf, get (snd nf) (ar cs a))) l) (map (fun nf => (fst nf, get (snd nf) (ar cs b))) l) =
      forallb (fun f => opt_eqb (opt_eqb value_eqb) (cell_of cs a f) (cell_of cs b f)) (map snd l)); [|apply H, incl_refl].
    induction l as [|[n f] l IH]; intros I; [reflexivity|]. cbn [row_eqb map fst snd forallb].
    rewrite IH by (intros x J; apply I; right; exact J). f_equal.
    destruct (key_get a f A) as (v & t & L & E & K & GE); [apply I; left; reflexivity|].
    destruct (key_get b f B) as (w & t' & L' & E' & K' & GE'); [apply I; left; reflexivity|]. assert (t' = t) by congruence. subst t'.
    rewrite GE, GE', E, E'. cbn [opt_eqb]. apply same_value with t; assumption.
  Qed.
  Lemma same_refl a : same a a = true.
  Proof. apply same_key_eq. reflexivity. Qed.
  Lemma same_sym a b : same a b = same b a.
  Proof. apply eq_true_iff_eq. rewrite !same_key_eq. split; congruence. Qed.
  Lemma same_trans a b d : same a b = true -> same b d = true -> same a d = true.
  Proof. rewrite !same_key_eq. congruence. Qed.

  (** ** The groups *)
  Definition firsts (rs : list trow) : list trow := fold_left (fun acc r => if existsb (same r) acc then acc else acc ++ [r]) rs [].
  Definition members (f : trow) (rs : list trow) : list trow := filter (same f) rs.
  Fixpoint apart (l : list trow) : Prop := match l with [] => True | a :: r => (forall b, In b r -> same a b = false) /\ apart r end.

  Lemma firsts_snoc rs r : firsts (rs ++ [r]) = if existsb (same r) (firsts rs) then firsts rs else firsts rs ++ [r].
  Proof. unfold firsts. rewrite fold_left_app. reflexivity. Qed.
  Lemma apart_snoc l r : apart l -> existsb (same r) l = false -> apart (l ++ [r]).
  Proof.
    induction l as [|a l IH]; cbn [apart app existsb]; intros A E; [split; [intros b []|exact I]|].
    apply orb_false_iff in E. destruct E as [E1 E2]. destruct A as [A1 A2]. split; [|auto].
    intros b J. apply in_app_iff in J. destruct J as [J|[<-|[]]]; [auto|]. rewrite same_sym. exact E1.
  Qed.
  Lemma firsts_ok rs : apart (firsts rs) /\ incl (firsts rs) rs /\ (forall r, In r rs -> existsb (same r) (firsts rs) = true).
  Proof.
    induction rs as [|r rs IH] using rev_ind; [split; [exact I|split; [intros x []|intros x []]]|].
    destruct IH as (A & IN & C). rewrite firsts_snoc. destruct (existsb (same r) (firsts rs)) eqn:E.
    - split; [exact A|]. split; [intros x J; apply in_or_app; left; auto|]. intros x J. apply in_app_iff in J. destruct J as [J|[<-|[]]]; [auto|exact E].
    - split; [apply apart_snoc; assumption|]. split.
      + intros x J. apply in_app_iff in J. apply in_or_app. destruct J as [J|[<-|[]]]; [left; auto|right; left; reflexivity].
      + intros x J. rewrite existsb_app. apply orb_true_iff. apply in_app_iff in J. destruct J as [J|[<-|[]]]; [left; auto|right]. cbn. rewrite same_refl. reflexivity.
  Qed.
  Lemma members_snoc f rs r : members f (rs ++ [r]) = members f rs ++ (if same f r then [r] else []).
  Proof. unfold members. rewrite filter_app. cbn. destruct (same f r); reflexivity. Qed.

  Lemma add_row_ok rs r l : Forall (good cs) l -> good cs r -> apart l -> (existsb (same r) l = false -> members r rs = []) ->
    add_row (kr r) (ar cs r) (map (fun f => (kr f, map (ar cs) (members f rs))) l) =
    map (fun f => (kr f, map (ar cs) (members f (rs ++ [r])))) (if existsb (same r) l then l else l ++ [r]).
  Proof.
    intros G R. induction G as [|f l Gf G IH]; intros A E.
    - cbn. rewrite members_snoc, (E eq_refl), same_refl. reflexivity.
    - destruct A as [A1 A2]. cbn [map add_row existsb]. rewrite (kr_eqb r f R Gf). destruct (same r f) eqn:S.
      + cbn [orb map]. rewrite members_snoc, same_sym, S, map_app. cbn [map]. f_equal. apply map_ext_in. intros g J.
        rewrite members_snoc. assert (Z : same g r = false); [|rewrite Z, app_nil_r; reflexivity].
        destruct (same g r) eqn:Q; [|reflexivity]. rewrite <- (A1 g J). symmetry. rewrite same_sym in S. rewrite same_sym in Q. eapply same_trans; eassumption.
      + cbn [orb]. cbn [existsb] in E. rewrite S in E. cbn [orb] in E. rewrite (IH A2 E).
        assert (Z : members f (rs ++ [r]) = members f rs) by (rewrite members_snoc, same_sym, S, app_nil_r; reflexivity).
        destruct (existsb (same r) l); cbn [map app]; rewrite Z; reflexivity.
  Qed.
  Lemma groups_ok rs : Forall (good cs) rs -> groups keys (map (ar cs) rs) = map (fun f => (kr f, map (ar cs) (members f rs))) (firsts rs).
  Proof.
    induction rs as [|r rs IH] using rev_ind; intros G; [reflexivity|]. apply Forall_app in G. destruct G as [G R]. inversion_clear R.
    unfold groups in *. rewrite map_app, fold_left_app. cbn [map fold_left]. rewrite (IH G), (key_row_ok r H).
    destruct (firsts_ok rs) as (A & IN & C). rewrite add_row_ok; [rewrite firsts_snoc; reflexivity| |exact H|exact A|].
    - rewrite Forall_forall in *. intros f J. apply G. apply IN. exact J.
    - intros E. destruct (members r rs) as [|x l] eqn:M; [reflexivity|]. exfalso. assert (J : In x (members r rs)) by (rewrite M; left; reflexivity).
      apply filter_In in J. destruct J as [J S]. specialize (C x J). apply existsb_exists in C. destruct C as (f & F & SF).
      assert (existsb (same r) (firsts rs) = true); [|congruence]. apply existsb_exists. exists f. split; [exact F|]. eapply same_trans; eassumption.
  Qed.

  (** ** Aggregates *)
  Lemma column_ok rs k t : Forall (good cs) rs -> lookup beqb k cs = Some t ->
    exists vs, column_at k {| cols := cs; rws := rs |} = Some {| ctype := t; crows := map Some vs |} /\
      Forall2 (fun r v => cell_of cs r k = Some (Some v) /\ cell_ok t (Some v)) rs vs.
  Proof.
    intros G L. destruct (lookup_covers _ _ _ L) as (j & I & C). unfold column_at. cbn [cols rws]. rewrite I, C.
    assert (H : exists vs, map (fun row => nth j row None) rs = map Some vs /\ Forall2 (fun r v => cell_of cs r k = Some (Some v) /\ cell_ok t (Some v)) rs vs).
    { induction G as [|r rs Gr G IH]; [exists []; split; [reflexivity|constructor]|]. destruct IH as (vs & E & F).
      destruct (good_cell _ _ _ _ Gr L) as (v & j' & Ec & K & I' & _ & Nv). assert (j' = j) by congruence. subst j'.
      exists (v :: vs). cbn [map]. rewrite E, (nth_error_nth _ _ None Nv). split; [reflexivity|]. constructor; auto. }
    destruct H as (vs & -> & F). eauto.
  Qed.
  Lemma num_vals k t rs vs : LValSpec.basic t = true -> Forall2 (fun r v => cell_of cs r k = Some (Some v) /\ cell_ok t (Some v)) rs vs ->
    map Some vs = map (option_map (VNum t)) (numbers cs k rs).
  Proof.
    intros B F. unfold numbers. induction F as [|r v rs vs (E & K) F IH]; [reflexivity|]. cbn [map]. rewrite IH. f_equal. unfold number. rewrite E.
    destruct v as [|s z|s]; [destruct K| |cbn in K; subst t; discriminate]. destruct K as (-> & _). reflexivity.
  Qed.
  Lemma fold_pick (sel : lval -> lval -> bool) (ok : comparison -> bool) t v vs :
    (forall m w, cell_ok t (Some m) -> cell_ok t (Some w) -> sel m w = negb (ok (lc m w))) ->
    (forall a b d, cell_ok t (Some a) -> cell_ok t (Some b) -> cell_ok t (Some d) -> ok (lc a b) = true -> ok (lc b d) = true -> ok (lc a d) = true) ->
    ok Eq = true -> (forall x, ok x = false -> ok (CompOpp x) = true) ->
    Forall (fun w => cell_ok t (Some w)) (v :: vs) ->
    let m := fold_left (fun m w => if sel m w then w else m) vs v in
    In m (v :: vs) /\ forall w, In w (v :: vs) -> ok (lc m w) = true.
  Proof.
    intros S TR RF OP. revert v. induction vs as [|w vs IH]; intros v F; cbn [fold_left].
    - split; [left; reflexivity|]. intros w [<-|[]]. assert (lc v v = Eq) as ->; [|exact RF].
      destruct v as [| |s]; cbn; [reflexivity|apply Z.compare_refl|apply bcmp_refl].
    - inversion_clear F. inversion_clear H0. rewrite (S v w H H1). destruct (ok (lc v w)) eqn:O; cbn [negb].
      + destruct (IH v) as [I L]; [constructor; assumption|]. split; [destruct I as [I|I]; [left; exact I|right; right; exact I]|].
        intros x [<-|[<-|J]]; [apply L; left; reflexivity| |apply L; right; exact J].
        assert (M : cell_ok t (Some (fold_left (fun m w => if sel m w then w else m) vs v))).
        { rewrite Forall_forall in H2. destruct I as [<-|I]; [exact H|apply H2; exact I]. }
        apply TR with v; try assumption. apply L. left. reflexivity.
      + destruct (IH w) as [I L]; [constructor; assumption|]. split; [right; exact I|].
        intros x [<-|J]; [|apply L; exact J].
        assert (M : cell_ok t (Some (fold_left (fun m w => if sel m w then w else m) vs w))).
        { rewrite Forall_forall in H2. destruct I as [<-|I]; [exact H1|apply H2; exact I]. }
        apply TR with w; try assumption; [apply L; left; reflexivity|]. rewrite lc_sym. apply OP. exact O.
  Qed.
  Definition le_ok (x : comparison) : bool := match x with Gt => false | _ => true end.
  Definition ge_ok (x : comparison) : bool := match x with Lt => false | _ => true end.
  Lemma lc_le t a b d : cell_ok t (Some a) -> cell_ok t (Some b) -> cell_ok t (Some d) -> le_ok (lc a b) = true -> le_ok (lc b d) = true -> le_ok (lc a d) = true.
  Proof.
    destruct a as [|ta za|sa]; cbn [cell_ok]; [tauto| |].
    - intros (-> & B & _). destruct b as [|tb zb|sb]; cbn [cell_ok]; [tauto| |intros ->; discriminate]. intros (-> & _).
      destruct d as [|td zd|sd]; cbn [cell_ok]; [tauto| |intros ->; discriminate]. intros (-> & _). cbn [lc]. unfold le_ok.
      destruct (Z.compare_spec za zb), (Z.compare_spec zb zd), (Z.compare_spec za zd); try reflexivity; try discriminate; lia.
    - intros ->. destruct b as [|tb zb|sb]; cbn [cell_ok]; [tauto|intros (-> & B & _); discriminate|]. intros _.
      destruct d as [|td zd|sd]; cbn [cell_ok]; [tauto|intros (-> & B & _); discriminate|]. intros _. cbn [lc]. unfold le_ok.
      destruct (bcmp sa sb) eqn:E1; try discriminate; intros _.
      + apply bcmp_eq in E1. subst. auto.
      + destruct (bcmp sb sd) eqn:E2; try discriminate; intros _; [apply bcmp_eq in E2; subst; rewrite E1; reflexivity|rewrite (bcmp_trans _ _ _ E1 E2); reflexivity].
  Qed.
  Lemma lc_ge t a b d : cell_ok t (Some a) -> cell_ok t (Some b) -> cell_ok t (Some d) -> ge_ok (lc a b) = true -> ge_ok (lc b d) = true -> ge_ok (lc a d) = true.
  Proof.
    assert (X : forall x, ge_ok (CompOpp x) = le_ok x) by (intros []; reflexivity).
    intros A B D. rewrite (lc_sym b a), (lc_sym d b), (lc_sym d a), !X. intros H K. exact (lc_le t d b a D B A K H).
  Qed.

  Lemma agg_value_ok a rs : Forall (good cs) rs -> rs <> [] -> length rs <= length (rws c) ->
    match a with
    | Count => (Z.of_nat (length (rws c)) < 2 ^ 64)%Z
    | Sum k => exists t, lookup beqb k cs = Some t /\ LValSpec.wide t = true /\ LValSpec.no_overflow t (numbers cs k rs)
    | Min k | Max k => lookup beqb k cs <> None
    end ->
    exists v t, agg_value a {| cols := cs; rws := rs |} = Ok v /\ agg_type cs a = Some t /\ cell_ok t (Some v) /\ means cs a rs v.
  Proof.
    intros G NE LE H. destruct a as [|k|k|k]; cbn [agg_value agg_type means rws].
    - assert (F : LValSpec.fits TU64 (Z.of_nat (length rs))) by (unfold LValSpec.fits; cbn [LValSpec.signed LValSpec.bits]; lia).
      exists (VNum TU64 (Z.of_nat (length rs))), TU64. rewrite (LValProofs.conv_fits TU64 _ eq_refl F). repeat split. apply F. apply F.
    - destruct H as (t & L & W & NO). destruct (column_ok rs k t G L) as (vs & -> & F).
      assert (B : LValSpec.basic t = true) by (destruct t; try discriminate; reflexivity).
      rewrite (num_vals k t rs vs B F). exists (VNum t (LValSpec.total (numbers cs k rs))), t.
      split; [exact (LValProofs.sum_exact t (numbers cs k rs) W NO)|]. split; [exact L|]. split; [|eauto].
      split; [reflexivity|]. split; [exact B|]. specialize (NO (length (numbers cs k rs))). rewrite firstn_all in NO. exact NO.
    - destruct (lookup beqb k cs) as [t|] eqn:L; [|congruence]. destruct (column_ok rs k t G L) as (vs & -> & F).
      destruct vs as [|v vs]; [inversion F; congruence|].
      assert (FO : Forall (fun w => cell_ok t (Some w)) (v :: vs)).
      { clear - F. remember (v :: vs) as l. clear Heql. induction F as [|r w rs l (_ & K) F IH]; constructor; auto. }
      unfold agg_min. cbn [crows]. rewrite map_map. cbn [cell]. rewrite map_id.
      destruct (fold_pick vgtb le_ok t v vs) as [I M]; [|apply lc_le|reflexivity|intros []; (discriminate || reflexivity)|exact FO|].
      { intros m w Km Kw. unfold vgtb. rewrite (same_lt t w m Kw Km), (lc_sym m w). destruct (lc m w); reflexivity. }
      cbv zeta in I, M. set (m := fold_left _ vs v) in *. exists m, t. split; [reflexivity|]. split; [reflexivity|].
      assert (Km : cell_ok t (Some m)) by (rewrite Forall_forall in FO; auto). split; [exact Km|].
      destruct (same_rel t m m Km Km) as (x & x' & Ex & _ & _). exists x. split; [exact Ex|]. split.
      + clear - F I Ex. induction F as [|r w rs l (E & K) F IH]; [destruct I|]. destruct I as [->|I].
        * exists r. split; [left; reflexivity|]. unfold content. rewrite E. exact Ex.
        * destruct (IH I) as (q & J & C). exists q. split; [right; exact J|exact C].
      + intros r y J C. assert (exists w, In w (v :: vs) /\ datum_of w = Some y /\ cell_ok t (Some w)) as (w & W & Ew & Kw).
        { clear - F J C. induction F as [|q w rs l (E & K) F IH]; [destruct J|]. destruct J as [->|J].
          - exists w. split; [left; reflexivity|]. split; [|exact K]. unfold content in C. rewrite E in C. exact C.
          - destruct (IH J) as (w' & W & X). exists w'. split; [right; exact W|exact X]. }
        specialize (M w W). destruct (same_rel t m w Km Kw) as (a & b & Ea & Eb & R). assert (a = x) by congruence. assert (b = y) by congruence. subst a b.
        rewrite R. destruct (lc m w); [right; reflexivity|left; reflexivity|discriminate].
    - destruct (lookup beqb k cs) as [t|] eqn:L; [|congruence]. destruct (column_ok rs k t G L) as (vs & -> & F).
      destruct vs as [|v vs]; [inversion F; congruence|].
      assert (FO : Forall (fun w => cell_ok t (Some w)) (v :: vs)).
      { clear - F. remember (v :: vs) as l. clear Heql. induction F as [|r w rs l (_ & K) F IH]; constructor; auto. }
      unfold agg_max. cbn [crows]. rewrite map_map. cbn [cell]. rewrite map_id.
      destruct (fold_pick vltb ge_ok t v vs) as [I M]; [|apply lc_ge|reflexivity|intros []; (discriminate || reflexivity)|exact FO|].
      { intros m w Km Kw. rewrite (same_lt t m w Km Kw). destruct (lc m w); reflexivity. }
      cbv zeta in I, M. set (m := fold_left _ vs v) in *. exists m, t. split; [reflexivity|]. split; [reflexivity|].
      assert (Km : cell_ok t (Some m)) by (rewrite Forall_forall in FO; auto). split; [exact Km|].
      destruct (same_rel t m m Km Km) as (x & x' & Ex & _ & _). exists x. split; [exact Ex|]. split.
      + clear - F I Ex. induction F as [|r w rs l (E & K) F IH]; [destruct I|]. destruct I as [->|I].
        * exists r. split; [left; reflexivity|]. unfold content. rewrite E. exact Ex.
        * destruct (IH I) as (q & J & C). exists q. split; [right; exact J|exact C].
      + intros r y J C. assert (exists w, In w (v :: vs) /\ datum_of w = Some y /\ cell_ok t (Some w)) as (w & W & Ew & Kw).
        { clear - F J C. induction F as [|q w rs l (E & K) F IH]; [destruct J|]. destruct J as [->|J].
          - exists w. split; [left; reflexivity|]. split; [|exact K]. unfold content in C. rewrite E in C. exact C.
          - destruct (IH J) as (w' & W & X). exists w'. split; [right; exact W|exact X]. }
        specialize (M w W). destruct (same_rel t m w Km Kw) as (a & b & Ea & Eb & R). assert (a = x) by congruence. assert (b = y) by congruence. subst a b.
        rewrite R. destruct (lc m w); [right; reflexivity|discriminate|left; reflexivity].
  Qed.

  (** ** All aggregates *)
  Notation rs := (rws c).
  Lemma each_of_map {A B D} (f : B -> res D) (g : A -> B) (h : A -> D) l : (forall a, In a l -> f (g a) = Ok (h a)) -> each f (map g l) = Ok (map h l).
  Proof.
    induction l as [|a l IH]; intros H; cbn [each map]; [reflexivity|]. rewrite (H a (or_introl eq_refl)). cbn [rbind].
    rewrite IH; [reflexivity|]. intros x I. apply H. right. exact I.
  Qed.
  Lemma combine_maps {A B D} (g : A -> B) (h : A -> D) l : combine (map g l) (map h l) = map (fun x => (g x, h x)) l.
  Proof. induction l as [|a l IH]; cbn; [reflexivity|]. rewrite IH. reflexivity. Qed.
  Definition va (f : trow) (a : agg) : lval := match agg_value a {| cols := cs; rws := members f rs |} with Ok v => v | Err _ => VNull end.
  Definition ty (k : list byte) : lty := match lookup beqb k cs with Some t => t | None => TNA end.
  Definition aty (a : agg) : lty := match agg_type cs a with Some t => t | None => TNA end.

  Lemma set_value_new k v row : ~ In k (map fst row) -> set_value k v row = row ++ [(k, v)].
  Proof.
    induction row as [|[k' x] row IH]; cbn [set_value map fst app]; intros H; [reflexivity|].
    destruct (beqb_spec k' k) as [E|_]; [exfalso; apply H; left; exact E|]. f_equal. apply IH. intros J. apply H. right. exact J.
  Qed.
  Lemma members_good f : Forall (good cs) (members f rs).
  Proof. apply Forall_forall. intros r I. apply filter_In in I. pose proof (good_rows c T N) as G. rewrite Forall_forall in G. apply G. tauto. Qed.
  Lemma members_length f : length (members f rs) <= length rs.
  Proof. unfold members. generalize rs. induction l as [|r l IH]; cbn; [lia|]. destruct (same f r); cbn; lia. Qed.
  Lemma va_ok f a : In f rs -> agg_ok c fs a ->
    agg_value a {| cols := cs; rws := members f rs |} = Ok (va f a) /\ agg_type cs a = Some (aty a) /\ cell_ok (aty a) (Some (va f a)) /\ means cs a (members f rs) (va f a).
  Proof.
    intros I A. unfold va, aty. destruct (agg_value_ok a (members f rs)) as (v & t & E & TY & K & M).
    - apply members_good.
    - intros X. assert (J : In f (members f rs)) by (apply filter_In; split; [exact I|apply same_refl]). rewrite X in J. destruct J.
    - apply members_length.
    - destruct a as [|k|k|k]; cbn [agg_ok] in A; try exact A. destruct A as (t & L & W & NO). exists t. repeat split; try assumption. apply NO. exact I.
    - rewrite E, TY. auto.
  Qed.
  Lemma calc_ok aggs : forall (R : trow -> list (list byte * lval)) ns L, L <> [] -> incl L rs -> (forall f, In f L -> map fst (R f) = ns) ->
    NoDup (map (fun x => agg_key (snd x)) aggs) -> (forall a, In a (map snd aggs) -> ~ In (agg_key a) ns) -> Forall (agg_ok c fs) (map snd aggs) ->
    calc cs aggs (map (fun f => (R f, map (ar cs) (members f rs))) L) =
    Ok (map (fun f => (R f ++ map (fun a => (agg_key a, va f a)) (map snd aggs), map (ar cs) (members f rs))) L, map (fun a => (agg_key a, aty a)) (map snd aggs)).
  Proof.
    induction aggs as [|[nm a] aggs IH]; intros R ns L NE IL NS ND DJ OK; cbn [calc map snd].
    - f_equal. f_equal. apply map_ext. intros f. rewrite app_nil_r. reflexivity.
    - cbn [map snd] in *. inversion_clear ND. inversion_clear OK. unfold calc_one.
      rewrite (each_of_map _ _ (fun f => va f a)).
      2:{ intros f I. cbn [snd]. rewrite (chunk_rows _ _ (members_good f)). cbn [rbind]. apply va_ok; [apply IL; exact I|exact H1]. }
      cbn [rbind fst snd]. rewrite combine_maps, map_map. cbn [fst snd].
      assert (E : map (fun x => (set_value (agg_key a) (va x a) (R x), map (ar cs) (members x rs))) L =
                  map (fun f => (R f ++ [(agg_key a, va f a)], map (ar cs) (members f rs))) L).
      { apply map_ext_in. intros f I. rewrite set_value_new; [reflexivity|]. rewrite (NS f I). apply DJ. left. reflexivity. }
      rewrite E. rewrite (IH (fun f => R f ++ [(agg_key a, va f a)]) (ns ++ [agg_key a]) L); try assumption.
      + cbn [rbind fst snd]. f_equal. f_equal.
        * apply map_ext. intros f. rewrite <- app_assoc. reflexivity.
        * f_equal. assert (X : forall l, l <> [] -> incl l rs -> match rev (map (fun f => va f a) l) with [] => ([], TNA) | v :: _ => (agg_key a, type_of v) end = (agg_key a, aty a)); [|apply X; assumption].
          intros l N0 I0. rewrite <- map_rev. destruct (rev l) as [|f l'] eqn:RV; [apply (f_equal (@rev _)) in RV; rewrite rev_involutive in RV; contradiction|].
          cbn [map]. f_equal. assert (In f l) by (apply in_rev; rewrite RV; left; reflexivity).
          destruct (va_ok f a (I0 f H3) H1) as (_ & _ & K & _). destruct (cell_storable _ _ K) as (_ & <- & _). reflexivity.
      + intros f I. rewrite map_app, (NS f I). reflexivity.
      + intros b I J. apply in_app_iff in J. destruct J as [J|[J|[]]]; [apply (DJ b); [right; exact I|exact J]|].
        apply H. rewrite J. rewrite <- (map_map snd agg_key). apply in_map. exact I.
  Qed.

  Lemma fill_typed cols row : Forall2 (fun col x => cell_ok (snd col) (Some (snd x))) cols row -> fill cols row = Ok (map (fun x => Some (snd x)) row).
  Proof.
    induction 1 as [|col x cols row K F IH]; [reflexivity|]. cbn [fill map]. rewrite (put_own _ _ K). cbn [rbind]. rewrite IH. reflexivity.
  Qed.
  Lemma key_types_ok r0 l : good cs r0 -> key_types keys (map (ar cs) (r0 :: l)) = map (fun nf => (snd nf, ty (snd nf))) keys.
  Proof.
    intros G. cbn [key_types map]. assert (H : forall (l : list (list byte * list byte)), incl (map snd l) fs ->
      flat_map (fun kf => match get (snd kf) (ar cs r0) with VNull => [] | v => [(snd kf, type_of v)] end) l = map (fun nf => (snd nf, ty (snd nf))) l); [|apply H, incl_refl].
    induction l0 as [|[n f] l0 IH]; intros I; [reflexivity|]. cbn [flat_map map fst snd] in *.
    destruct (key_get r0 f G) as (v & t & L & E & K & GE); [apply I; left; reflexivity|]. rewrite GE.
    rewrite IH by (intros x J; apply I; right; exact J). unfold ty. rewrite L. destruct (cell_storable _ _ K) as (_ & <- & NV).
    destruct v; [congruence| |]; reflexivity.
  Qed.
  Lemma Forall2_maps {A B D} (P : B -> D -> Prop) (f : A -> B) (g : A -> D) l : (forall a, In a l -> P (f a) (g a)) -> Forall2 P (map f l) (map g l).
  Proof. induction l as [|a l IH]; intros H; constructor; [apply H; left; reflexivity|apply IH; intros x I; apply H; right; exact I]. Qed.

  Theorem group_ok aggs : rs <> [] -> NoDup (map (fun x => agg_key (snd x)) aggs) ->
    (forall a, In a (map snd aggs) -> ~ In (agg_key a) (map fst keys)) -> Forall (agg_ok c fs) (map snd aggs) ->
    exists out heads, table_group keys aggs c = Ok out /\
      map fst (cols out) = fs ++ map agg_key (map snd aggs) /\
      map (fun x => Some (snd x)) (cols out) = map (fun f => lookup beqb f cs) fs ++ map (agg_type cs) (map snd aggs) /\
      incl heads rs /\ ForallOrdPairs (fun a b => same a b = false) heads /\ (forall r, In r rs -> exists h, In h heads /\ same h r = true) /\
      Forall2 (fun h row => exists ks vs, row = map Some ks ++ map Some vs /\ map (fun v => Some (Some v)) ks = key_values cs fs h /\
                 Forall2 (fun a v => means cs a (filter (same h) rs) v) (map snd aggs) vs) heads (rws out).
  Proof.
    intros NE ND DJ OK. pose proof (good_rows c T N) as G. destruct (firsts_ok rs) as (AP & IN & CV).
    assert (HN : firsts rs <> []).
    { destruct rs as [|r l] eqn:E; [contradiction|]. intros X. specialize (CV r (or_introl eq_refl)). rewrite X in CV. discriminate. }
    set (kc := map (fun nf => (snd nf, ty (snd nf))) keys). set (ac := map (fun a => (agg_key a, aty a)) (map snd aggs)).
    set (row := fun f => kr f ++ map (fun a => (agg_key a, va f a)) (map snd aggs)).
    exists {| cols := kc ++ ac; rws := map (fun f => map (fun x => Some (snd x)) (row f)) (firsts rs) |}, (firsts rs).
    split; [|split; [|split; [|split; [exact IN|split; [|split]]]]].
    - unfold table_group. rewrite (matrix_ok c T N). cbn [rbind]. rewrite (groups_ok rs G).
      rewrite (calc_ok aggs kr (map fst keys) (firsts rs) HN IN); try assumption.
      2:{ intros f _. unfold kr. rewrite map_map. reflexivity. }
      cbn [rbind fst snd]. fold ac. rewrite (map_map _ fst (firsts rs)). cbn [fst].
      assert (KT : key_types keys (map (ar cs) rs) = kc). { destruct rs as [|r l]; [contradiction|]. apply key_types_ok. inversion G. assumption. }
      rewrite KT. unfold chunk_of. change (map (fun x => kr x ++ map (fun a => (agg_key a, va x a)) (map snd aggs)) (firsts rs)) with (map row (firsts rs)). rewrite (each_of_map _ row (fun f => map (fun x => Some (snd x)) (row f))); [reflexivity|].
      intros f I. apply fill_typed. apply Forall2_app.
      + apply Forall2_maps. intros [n k] J. cbn [fst snd]. rewrite Forall_forall in G.
        destruct (key_get f k (G f (IN f I))) as (v & t & L & E & K & GE); [apply (in_map snd) in J; exact J|]. rewrite GE. unfold ty. rewrite L. exact K.
      + apply Forall2_maps. intros a J. cbn [snd]. rewrite Forall_forall in OK. destruct (va_ok f a (IN f I) (OK a J)) as (_ & _ & K & _). exact K.
    - cbn [cols]. unfold kc, ac. rewrite map_app, !map_map. reflexivity.
    - cbn [cols]. unfold kc, ac. rewrite map_app, !map_map. cbn [snd]. f_equal.
      + apply map_ext_in. intros [n k] J. cbn [snd]. unfold ty. destruct (lookup beqb k cs) eqn:L; [reflexivity|]. exfalso. apply (KF k); [apply (in_map snd) in J; exact J|exact L].
      + apply map_ext_in. intros [n a] J. cbn [snd]. rewrite Forall_forall in OK.
        destruct (firsts rs) as [|f l] eqn:E; [contradiction|]. destruct (va_ok f a) as (_ & TY & _); [apply IN; left; reflexivity|apply OK; apply (in_map snd) in J; exact J|]. rewrite TY. reflexivity.
    - clear - AP. induction (firsts rs) as [|a l IH]; [constructor|]. destruct AP as [A B]. constructor; [apply Forall_forall; exact A|auto].
    - intros r I. specialize (CV r I). apply existsb_exists in CV. destruct CV as (h & H & S). exists h. split; [exact H|]. rewrite same_sym. exact S.
    - cbn [rws]. rewrite <- (map_id (firsts rs)) at 1. apply Forall2_maps. intros f I.
      exists (map snd (kr f)), (map (va f) (map snd aggs)). split; [unfold row; rewrite map_app, !map_map; reflexivity|]. split.
      + unfold kr, key_values. rewrite !map_map. cbn [snd]. apply map_ext_in. intros [n k] J. cbn [snd].
        rewrite Forall_forall in G. destruct (key_get f k (G f (IN f I))) as (v & t & L & E & K & GE); [apply (in_map snd) in J; exact J|]. rewrite GE, E. reflexivity.
      + rewrite <- (map_id (map snd aggs)) at 1. apply Forall2_maps. intros a J. rewrite Forall_forall in OK. destruct (va_ok f a (IN f I) (OK a J)) as (_ & _ & _ & M). exact M.
  Qed.
End Group.
