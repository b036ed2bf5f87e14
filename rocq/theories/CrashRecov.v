(** A restart reaches normal work with everything that was in the log. *)
From Coq Require Import List NArith ZArith Bool Lia Permutation.
From Verif Require Import Bytes Outcome.
From Verif Require Import QueryModel QuerySpec QueryProofs CrashModel CrashSpec CrashProofs CrashInv CrashNormal.
Import ListNotations.

Lemma some_get (m : option (list doc)) : is_some (option_map get m) = is_some m.
Proof. destruct m; reflexivity. Qed.

(** ** The end of a restart *)
Lemma recov_end s sub lp P1 P2 R dn Dr Ds : recov s sub lp P1 P2 R dn Dr Ds -> recovering s = false -> normal s sub.
Proof.
  intros N C. destruct N. unfold recovering in C. apply orb_false_iff in C. destruct C as [C1 C2]. rewrite r_mail in C1.
  destruct lp; [discriminate|]. specialize (r_lp eq_refl). subst P2. cbn in C1.
  destruct dn as [|x dn]; [|discriminate]. destruct (s_exq s) as [|y q] eqn:Q.
  2:{ exfalso. pose proof (Forall_inv r_exq) as [E _]. cbn in C2. rewrite E in C2. discriminate. }
  cbn in r_mail, r_T. rewrite app_nil_r in *.
  assert (MO : forall c, mem_ok (s_store s c) (effects (s_wal s) c)).
  { intros c. specialize (r_T c). specialize (r_well c). change (effs c [] ?o) with o in r_T. destruct (s_store s c) as [l|]; cbn in *.
    - destruct (effects (s_wal s) c); [|contradiction]. split; auto.
    - destruct (effects (s_wal s) c); [contradiction|exact I]. }
  exists (s_wal s), [], Ds, Ds, R, [], [], [], [], []. cbn in r_apply. constructor; cbn; rewrite ?r_walq, ?Q, ?app_nil_r; auto.
  - rewrite r_mail. constructor.
  - destruct r_restart. assumption.
  - cbn. exact I.
  - intros c. rewrite <- (mem_ok_some _ _ (MO c)). apply r_tabs.
  - intros d. rewrite <- (firstn_skipn (d_wal Dr) (s_wal s)) at 1. rewrite r_P. cbn in r_dbs. rewrite r_dbs. split; [|apply r_db2].
    intros I. rewrite <- r_P, firstn_skipn. apply r_db1, I.
  - constructor.
  - intros _ X. congruence.
  - intros c. eapply simc_ext; [|apply r_sim]. apply mem_ok_same, MO.
  - intros d. split; [apply r_db1|]. intros I. apply r_db2. rewrite <- r_P, firstn_skipn. exact I.
  - destruct r_fix as [F|(_ & _ & F & _)]; rewrite F; [lia|]. apply t_w. exact r_restart.
  - intros r I. destruct r_fix as [F|(_ & _ & F & AB)]; rewrite F in I.
    + rewrite skipn_all in I. destruct I.
    + rewrite r_P in I. destruct (AB r I) as [[]|[D1 D2]]. split; [exact D1|]. intros c.
      pose proof (mem_ok_same _ _ (MO c)) as SM. eapply same_trans; [apply eff_ext, same_sym, SM|].
      eapply same_trans; [apply D2|exact SM].
Qed.
Lemma settle s sub lp P1 P2 R dn Dr Ds : recov s sub lp P1 P2 R dn Dr Ds -> inv s sub.
Proof.
  intros N. destruct (recovering s) eqn:C; [right|left].
  - split; [exact C|]. exists lp, P1, P2, R, dn, Dr, Ds. exact N.
  - split; [exact C|]. eapply recov_end; eassumption.
Qed.
Lemma normal_inv s sub : normal s sub -> inv s sub.
Proof.
  intros N. left. split; [|exact N]. destruct N as (V & FL & D0 & D1 & R & pre & A & Rq & Sc & Dn & N). eapply norm_calm, N.
Qed.

(** ** The beginning of a restart *)
Lemma reopen_loaded k c : loaded (reopen k) c = loaded k c.
Proof. unfold loaded, reopen, tree_or_new. cbn. destruct (d_tabs k c); reflexivity. Qed.
Lemma reopen_restartable k W : restartable k W -> restartable (reopen k) W.
Proof. intros T. destruct T. constructor; cbn; try assumption. intros c. rewrite reopen_loaded. apply t_same. Qed.

Lemma restart_inv s sub : restartable (s_disk s) (s_wal s) -> subseq (s_acked s) (s_wal s) ->
  (exists lost, Permutation (s_wal s ++ lost) sub) -> inv (restart s) sub.
Proof.
  intros T AC SB. pose proof (reopen_restartable _ _ T) as T'. destruct (d_dbs (s_disk s)) as [|d0 ds] eqn:DB.
  - pose proof (t_first _ _ T DB) as W. apply normal_inv. unfold restart. cbn. rewrite DB, W in *.
    exists [], [], (reopen (s_disk s)), (reopen (s_disk s)), [], [], [], [], [], [].
    assert (NT : forall c, d_tabs (s_disk s) c = false).
    { intros c. apply not_true_is_false. intros E. apply (t_tabs _ _ T) in E. rewrite DB in E. destruct E. }
    constructor; cbn; rewrite ?DB; auto.
    + constructor.
    + constructor.
    + intros c. exact I.
    + intros d. tauto.
    + constructor.
    + congruence.
    + intros c. change (simc (reopen (s_disk s)) c None). cbn. rewrite NT. auto.
    + intros d. cbn. tauto.
    + apply (t_w _ _ T).
    + rewrite skipn_nil. intros r [].
  - unfold restart. cbn. rewrite DB.
    refine (settle _ _ true [] (skipn (d_wal (s_disk s)) (s_wal s)) [] [] (reopen (s_disk s)) (reopen (s_disk s)) _).
    assert (LO : forall c, same (option_map get (option_map load_docs (if d_tabs (s_disk s) c then Some (tree_or_new (s_disk s) c) else None)))
      (loaded (s_disk s) c)).
    { intros c. unfold loaded. destruct (d_tabs (s_disk s) c); cbn; [|exact I]. intros i. apply load_get. }
    constructor; cbn; rewrite ?DB; auto; try discriminate.
    + intros c. eapply simc_ext; [apply same_sym, LO|]. apply reopen_simc.
    + intros c l E. destruct (d_tabs (s_disk s) c); cbn in E; [|discriminate]. injection E as <-. apply load_well.
    + intros c. eapply same_trans; [apply effs_ext, LO|]. apply (t_same _ _ T).
    + intros c. destruct (d_tabs (s_disk s) c); reflexivity.
    + intros _ c _. destruct (d_tabs (s_disk s) c); reflexivity.
    + intros d. cbn. tauto.
    + intros d. rewrite <- DB. apply (t_db1 _ _ T).
    + intros d. rewrite app_nil_r, <- DB. apply (t_db2 _ _ T).
    + intros c E. apply (t_tabs _ _ T) in E. rewrite DB in E. exact E.
    + right. repeat (split; [reflexivity|]). intros r [].
Qed.

Lemma fold_cat_mono dn : Forall (fun x => forall d, fst x <> DropDb d) dn -> forall k d, In d (c_dbs k) -> In d (c_dbs (fold_cat k dn)).
Proof.
  induction 1 as [|[r ops] dn H F IH]; intros k d I; [exact I|]. unfold fold_cat. cbn. apply IH. unfold update_catalog.
  destruct r; cbn; auto; [|exfalso; eapply H; reflexivity]. destruct (mem_N d0 (c_dbs k)); [exact I|]. apply in_or_app. auto.
Qed.

(** ** A record is carried out *)
Lemma recov_done s sub lp P1 P2 R dn Dr Ds r ops mm E' P1' P2' : recov s sub lp P1 P2 R dn Dr Ds ->
  statement_ok r = true -> okops (match target r with Some c => option_map get (s_store s c) | None => None end) r ops ->
  (forall c, r = CreateColl c -> In (fst c) (d_dbs Ds)) ->
  (forall c, on r c = false -> mm c = s_store s c) ->
  (forall c, target r = Some c -> same (option_map get (mm c)) (eff c r (option_map get (s_store s c))) /\ (forall l, mm c = Some l -> well_stored l)) ->
  skipn (d_wal Dr) (s_wal s) = P1' ++ P2' -> (lp = false -> P2' = []) ->
  (forall x, In x (map rq E') -> In x P1') -> Forall (ex_ok (Replay (length (s_wal s))) mm) E' ->
  (forall c, same (effs c (map rq E' ++ P2') (option_map get (mm c))) (effects (s_wal s) c)) ->
  (lp = true -> forall c, (forall x, In x P1' -> on x c = true -> ddl x = false) -> c_tabs (s_cat s) c = is_some (mm c)) ->
  (forall d, In (CreateDb d) (firstn (d_wal Dr) (s_wal s) ++ P1') -> In d (d_dbs Ds) \/ r = CreateDb d) -> In r (s_wal s) ->
  exists Ds', recov (with_mail (with_exq (with_store s mm) E') (((if lp then [Loop P2' (length (s_wal s))] else []) ++
                      map (fun x => Done (Replay (length (s_wal s))) (fst x) (snd x)) dn) ++ [Done (Replay (length (s_wal s))) r ops]))
     sub lp P1' P2' R (dn ++ [(r, ops)]) Dr Ds'.
Proof.
  intros N SO OK CD OFF ON SK LP EX1 EX2 TT TB DB IN. pose proof N as X. destruct X.
  destruct (apply_ok r ops Ds _ SO OK) as (k & AP & (U & _) & DA & SM).
  { intros c T. rewrite T. apply r_sim. }
  { exact CD. }
  exists {| d_dbs := d_dbs k; d_tabs := d_tabs k; d_trees := d_trees k; d_wal := length (s_wal s) |}.
  assert (FC : fold_cat (s_cat s) (dn ++ [(r, ops)]) = update_catalog (fold_cat (s_cat s) dn) r).
  { unfold fold_cat. rewrite map_app, fold_left_app. reflexivity. }
  constructor; cbn; try assumption.
  - rewrite map_app, app_assoc. reflexivity.
  - apply Forall_app. split; [exact r_dn|]. constructor; [|constructor]. intros d. cbn. intros ->. discriminate.
  - rewrite flat_map_app, app_assoc, apply_app, r_apply. cbn [rbind flat_map snd]. rewrite app_nil_r, apply_app, AP. reflexivity.
  - intros c. destruct (on r c) eqn:O.
    + apply target_on in O. pose proof (SM c O) as X. rewrite O in X. destruct (ON c O) as [Y _].
      eapply simc_ext; [apply same_sym, Y|]. exact X.
    + rewrite (OFF c O). destruct (U c O) as [U1 U2]. eapply simc_cong; [symmetry; exact U1|symmetry; exact U2|apply r_sim].
  - intros c l E. destruct (on r c) eqn:O; [|rewrite (OFF c O) in E; eapply r_well, E]. apply target_on in O. apply (ON c O). exact E.
  - intros c. rewrite FC. pose proof (r_tabs c) as T. unfold update_catalog. destruct (on r c) eqn:O.
    + pose proof O as O'. apply target_on in O. destruct (ON c O) as [Y _]. apply same_some in Y. rewrite !some_get in Y || rewrite some_get in Y. rewrite Y.
      unfold eff. rewrite O'. destruct r; cbn in O; try discriminate; injection O as ->; cbn [c_tabs].
      * rewrite (proj2 (mem_N_In _ _)) by (apply r_dbs, CD; reflexivity). rewrite set_at_eq. destruct (s_store s c); reflexivity.
      * rewrite set_at_eq. reflexivity.
      * rewrite T. destruct (s_store s c); reflexivity.
      * rewrite T. destruct (s_store s c); reflexivity.
    + rewrite (OFF c O), <- T. destruct r; cbn in O, SO |- *; try reflexivity; try discriminate.
      * destruct (mem_N _ _); [|reflexivity]. unfold set_at. rewrite O. reflexivity.
      * unfold set_at. rewrite O. reflexivity.
  - intros d. rewrite FC, (DA d). specialize (r_dbs d). rewrite <- r_dbs.
    destruct r; cbn in SO |- *; try discriminate; try (split; [tauto|]; intros [H|H]; [exact H|discriminate]).
    destruct (mem_N d0 (c_dbs (fold_cat (s_cat s) dn))) eqn:E.
    + apply mem_N_In in E. split; [tauto|]. intros [H|[= <-]]; assumption.
    + rewrite in_app_iff. cbn. split; intros [H|H]; auto; right; [destruct H as [->|[]]; reflexivity|left; congruence].
  - intros d I. apply DA in I. destruct I as [I| ->]; [apply r_db1, I|exact IN].
  - intros d I. apply DA. apply DB, I.
  - left. reflexivity.
Qed.

(** ** The dispatcher *)
Lemma recov_loop s sub r P1 P2 R dn Dr Ds : recov s sub true P1 (r :: P2) R dn Dr Ds ->
  exists s', dispatch (Replay (length (s_wal s))) r
    (with_mail s (Loop P2 (length (s_wal s)) :: map (fun x => Done (Replay (length (s_wal s))) (fst x) (snd x)) dn)) = Ok s' /\ inv s' sub.
Proof.
  intros N. pose proof N as X. destruct X.
  set (w := d_wal Dr) in *.
  assert (SK : skipn w (s_wal s) = (P1 ++ [r]) ++ P2) by (rewrite r_P, <- app_assoc; reflexivity).
  assert (WL : s_wal s = (firstn w (s_wal s) ++ P1) ++ r :: P2) by (rewrite <- app_assoc, <- r_P, firstn_skipn; reflexivity).
  assert (IN : In r (s_wal s)) by (rewrite WL; apply in_or_app; right; left; reflexivity).
  pose proof (hist_split _ (t_hist _ _ r_restart) _ _ _ WL) as [HP VA]. pose proof VA as [SO VB].
  pose proof (t_pairs _ _ r_restart) as PR. fold w in PR. rewrite r_P in PR. apply pairs_app in PR. destruct PR as (_ & PR2 & PR3).
  apply pairs_hd in PR2. destruct PR2 as [PR2 _]. rewrite Forall_forall in PR2.
  assert (C1 : forall x, In x P1 -> compat r x) by (intros x I; apply compat_sym, PR3; [exact I|left; reflexivity]).
  assert (CE : forall x, In x (map rq (s_exq s)) -> compat r x) by (intros x I; apply C1, r_exqP, I).
  assert (TB : forall c, on r c = true -> has_coll (s_cat s) c = is_some (s_store s c)).
  { intros c O. rewrite <- (r_tabs2 eq_refl c).
    - unfold has_coll. destruct (c_tabs (s_cat s) c) eqn:E; [|apply andb_false_r]. rewrite andb_true_r. apply mem_N_In, r_has, E.
    - intros x I O'. apply (C1 x I c O O'). }
  assert (EXD : ddl r = true -> forall c, on r c = true -> forall o, effs c (map rq (s_exq s)) o = o).
  { intros D c O o. apply effs_none. intros x I. apply not_true_is_false. intros O'. destruct (CE x I c O O'). congruence. }
  assert (SDB : forall d, In (CreateDb d) (firstn w (s_wal s) ++ P1 ++ [r]) -> In d (d_dbs Ds) \/ r = CreateDb d).
  { intros d. rewrite app_assoc, in_app_iff. intros [I|[I|[]]]; [left; apply r_db2, I|right; exact I]. }
  (* a record that makes no difference *)
  assert (Q0 : ddl r = true -> (forall c, same (eff c r (option_map get (s_store s c))) (option_map get (s_store s c))) ->
    (forall d, r = CreateDb d -> In d (d_dbs Ds)) ->
    inv (with_mail s (Loop P2 (length (s_wal s)) :: map (fun x => Done (Replay (length (s_wal s))) (fst x) (snd x)) dn)) sub).
  { intros D AB CD. apply (settle _ _ true (P1 ++ [r]) P2 R dn Dr Ds). constructor; cbn; try assumption; auto.
    - discriminate.
    - intros x I. apply in_or_app. auto.
    - intros c. eapply same_trans; [|apply r_T]. rewrite !effs_app. change (effs c (r :: P2) ?o) with (effs c P2 (eff c r o)). apply effs_ext.
      destruct (on r c) eqn:O; [rewrite (EXD D c O); apply same_sym, AB|]. rewrite eff_off by exact O. apply same_refl.
    - intros _ c H. apply r_tabs2; [reflexivity|]. intros x I. apply H. apply in_or_app. auto.
    - intros d I. destruct (SDB d I) as [J|J]; [exact J|apply CD, J].
    - destruct r_fix as [F|(F1 & F2 & F3 & F4)]; [auto|]. right. repeat (split; [assumption|]). intros x I. apply in_app_or in I.
      destruct I as [I|[<-|[]]]; [apply F4, I|]. right. auto. }
  (* a record that creates or drops something *)
  assert (Q1 : forall mm ops, ddl r = true -> okops (match target r with Some c => option_map get (s_store s c) | None => None end) r ops ->
    (forall c, on r c = false -> mm c = s_store s c) ->
    (forall c, target r = Some c -> same (option_map get (mm c)) (eff c r (option_map get (s_store s c))) /\ (forall l, mm c = Some l -> well_stored l)) ->
    inv (tell (with_store (with_mail s (Loop P2 (length (s_wal s)) :: map (fun x => Done (Replay (length (s_wal s))) (fst x) (snd x)) dn)) mm)
         (Done (Replay (length (s_wal s))) r ops)) sub).
  { intros mm ops D OK OFF ON.
    destruct (recov_done s sub true P1 (r :: P2) R dn Dr Ds r ops mm (s_exq s) (P1 ++ [r]) P2 N SO OK) as [Ds' N'].
    - intros c E. subst r. apply r_db2. exact VB.
    - exact OFF.
    - exact ON.
    - exact SK.
    - discriminate.
    - intros x I. apply in_or_app. auto.
    - rewrite Forall_forall in *. intros x I. destruct (r_exq x I) as (E1 & E2 & E3 & E4 & c & E5 & E6).
      repeat (split; [assumption|]). exists c. split; [exact E5|]. rewrite OFF; [exact E6|].
      apply not_true_is_false. intros O. destruct (CE (rq x) (in_map _ _ _ I) c O (proj1 (target_on _ _) E5)). congruence.
    - intros c. eapply same_trans; [|apply r_T]. rewrite !effs_app. change (effs c (r :: P2) ?o) with (effs c P2 (eff c r o)). apply effs_ext.
      destruct (on r c) eqn:O.
      + rewrite !(EXD D c O). apply ON, target_on, O.
      + rewrite eff_off by exact O. rewrite OFF by exact O. apply same_refl.
    - intros _ c H. destruct (on r c) eqn:O.
      + rewrite (H r) in D; [discriminate|apply in_or_app; right; left; reflexivity|exact O].
      + rewrite OFF by exact O. apply r_tabs2; [reflexivity|]. intros x I. apply H. apply in_or_app. auto.
    - exact SDB.
    - exact IN.
    - exact (settle _ _ _ _ _ _ _ _ _ N'). }
  (* a record for the executor *)
  assert (Q2 : forall c, target r = Some c -> ddl r = false -> has_coll (s_cat s) c = true /\ s_store s c <> None /\
    inv (with_exq (with_mail s (Loop P2 (length (s_wal s)) :: map (fun x => Done (Replay (length (s_wal s))) (fst x) (snd x)) dn))
       (s_exq s ++ [(Replay (length (s_wal s)), r, false)])) sub).
  { intros c T D. pose proof (proj1 (target_on _ _) T) as O.
    assert (S : is_some (s_store s c) = true).
    { pose proof (same_some _ _ (r_T c)) as E. rewrite effs_some in E.
      - rewrite some_get in E. rewrite E, WL, effects_app. rewrite effs_some.
        + assert (Z : effects (firstn w (s_wal s) ++ P1) c <> None) by (destruct r; try discriminate; cbn in T; injection T as ->; exact VB).
          destruct (effects (firstn w (s_wal s) ++ P1) c); [reflexivity|congruence].
        + intros x [<-|I] O'; [exact D|]. apply (PR2 x I c O O').
      - intros x I O'. apply in_app_or in I. destruct I as [I|[<-|I]]; [apply (CE x I c O O')|exact D|apply (PR2 x I c O O')]. }
    split; [rewrite (TB c O); exact S|]. assert (SN : s_store s c <> None) by (destruct (s_store s c); discriminate). split; [exact SN|].
    apply (settle _ _ true (P1 ++ [r]) P2 R dn Dr Ds). constructor; cbn; try assumption; auto.
    - discriminate.
    - apply Forall_app. split; [exact r_exq|]. constructor; [|constructor]. repeat (split; [first [reflexivity|assumption]|]). exists c. auto.
    - intros x. rewrite map_app, !in_app_iff. intros [I|I]; [left; apply r_exqP, I|right; exact I].
    - intros c'. rewrite map_app, <- app_assoc. apply r_T.
    - intros _ c' H. apply r_tabs2; [reflexivity|]. intros x I. apply H. apply in_or_app. auto.
    - intros d I. destruct (SDB d I) as [J|J]; [exact J|]. subst r. discriminate.
    - destruct r_fix as [F|(F1 & F2 & F3 & F4)]; [auto|]. right. repeat (split; [assumption|]). intros x I. rewrite map_app, in_app_iff.
      apply in_app_or in I. destruct I as [I|I]; [|left; right; exact I]. destruct (F4 x I); tauto. }
  unfold dispatch. cbn [s_cat with_mail]. destruct r; try discriminate; cbn [check].
  - destruct (mem_N d (c_dbs (s_cat s))) eqn:M; cbn [negb]; (eexists; split; [reflexivity|]).
    + apply Q0; [reflexivity| |].
      * intros c. rewrite eff_off by reflexivity. apply same_refl.
      * intros d' [= <-]. apply r_dbs. apply mem_N_In in M. apply fold_cat_mono; assumption.
    + refine (Q1 (s_store s) _ _ _ _ _); cbn; auto. discriminate.
  - rewrite (TB c (ceqb_refl c)). cbn [s_store with_mail]. destruct (s_store s c) as [l|] eqn:SN; cbn [is_some negb]; (eexists; split; [reflexivity|]).
    + apply Q0; [reflexivity| |discriminate]. intros x. unfold eff. cbn. destruct (ceqb c x) eqn:E; [|apply same_refl].
      apply ceqb_eq in E. subst x. rewrite SN. apply same_refl.
    + apply Q1; cbn; auto.
      * intros x E. rewrite set_at_neq by (apply ceqb_neq, E). reflexivity.
      * intros x [= <-]. rewrite set_at_eq, SN. unfold eff. cbn. rewrite ceqb_refl. cbn. split; [reflexivity|]. intros l [= <-]. constructor.
  - rewrite (TB c (ceqb_refl c)). cbn [s_store with_mail s_exq]. destruct (s_store s c) as [l|] eqn:SN; cbn [is_some]; (eexists; split; [reflexivity|]).
    + rewrite gone_off.
      2:{ rewrite Forall_forall. intros x I. apply not_true_is_false. intros O.
          destruct (CE (rq x) (in_map _ _ _ I) c (ceqb_refl c) O). discriminate. }
      refine (Q1 (set_at (s_store s) c None) _ _ _ _ _); cbn; auto.
      * intros x E. rewrite set_at_neq by (apply ceqb_neq, E). reflexivity.
      * intros x [= <-]. rewrite set_at_eq. unfold eff. cbn. rewrite ceqb_refl. cbn. split; [exact I|discriminate].
    + apply Q0; [reflexivity| |discriminate]. intros x. unfold eff. cbn. destruct (ceqb c x) eqn:E; [|apply same_refl].
      apply ceqb_eq in E. subst x. rewrite SN. exact I.
  - destruct (Q2 c eq_refl eq_refl) as (HC & SN & IV). rewrite HC. cbn [s_store with_mail s_exq].
    destruct (s_store s c); [|congruence]. eexists. split; [reflexivity|exact IV].
  - destruct (Q2 c eq_refl eq_refl) as (HC & SN & IV). rewrite HC. cbn [s_store with_mail s_exq].
    destruct (s_store s c); [|congruence]. eexists. split; [reflexivity|exact IV].
Qed.

Lemma recov_disp s sub lp P1 P2 R dn Dr Ds : recov s sub lp P1 P2 R dn Dr Ds -> exists s', disp s = Ok s' /\ inv s' sub.
Proof.
  intros N. unfold disp. rewrite (r_mail _ _ _ _ _ _ _ _ _ N). destruct lp; cbn [app].
  - destruct P2 as [|r P2]; [|apply (recov_loop _ _ _ _ _ _ _ _ _ N)].
    eexists. split; [reflexivity|]. destruct N. apply (settle _ _ false P1 [] R dn Dr Ds). constructor; cbn; try assumption; auto; discriminate.
  - destruct dn as [|[r ops] dn]; cbn [map fst snd].
    + exists s. split; [reflexivity|]. eapply settle, N.
    + assert (ND : (match r with DropDb _ => true | _ => false end) = false).
      { destruct N. pose proof (Forall_inv r_dn) as X. destruct r; auto. exfalso. eapply X. reflexivity. }
      assert (G : inv (flush true ops (length (s_wal s)) (with_cat (with_mail s (map (fun x => Done (Replay (length (s_wal s))) (fst x) (snd x)) dn))
                        (update_catalog (s_cat s) r))) sub).
      { destruct N. apply (settle _ _ false P1 P2 (R ++ ops ++ [DFix (length (s_wal s))]) dn Dr Ds). constructor; cbn; try assumption; auto.
        - rewrite r_agent, !map_app. reflexivity.
        - apply (Forall_inv_tail r_dn).
        - rewrite <- app_assoc. cbn in r_apply. exact r_apply.
        - discriminate.
        - intros c. unfold update_catalog. destruct r; cbn; auto.
          + destruct (mem_N d (c_dbs (s_cat s))); [apply r_has|]. intros H. apply in_or_app. left. apply r_has, H.
          + discriminate.
          + destruct (mem_N (fst c0) (c_dbs (s_cat s))) eqn:M; [|apply r_has]. unfold set_at. destruct (ceqb c0 c) eqn:E; [|apply r_has].
            intros _. apply ceqb_eq in E. subst c0. apply mem_N_In, M.
          + unfold set_at. destruct (ceqb c0 c); [discriminate|apply r_has].
        - destruct r_fix as [F|(_ & F & _)]; [left; exact F|discriminate]. }
      destruct r; try discriminate; eexists; (split; [reflexivity|exact G]).
Qed.

(** ** The executor *)
Lemma recov_exec s sub lp P1 P2 R dn Dr Ds : recov s sub lp P1 P2 R dn Dr Ds -> exists s', exec s = Ok s' /\ inv s' sub.
Proof.
  intros N. unfold exec. pose proof N as X. destruct X. destruct (s_exq s) as [|[[o r] gone] q] eqn:Q.
  { exists s. split; [reflexivity|]. eapply settle, N. }
  pose proof (Forall_inv r_exq) as (E1 & E2 & SO & DL & c & T & S). cbn in E1, E2. unfold rq in SO, DL, T. cbn in SO, DL, T. subst o gone.
  rewrite T. cbn [s_store with_exq]. destruct (s_store s c) as [l|] eqn:SC; [|congruence].
  destruct (work_ok r c l SO DL T (r_well c l SC)) as (l' & ops & WK & W' & SM & OK). rewrite WK. cbn [rbind fst snd].
  eexists. split; [reflexivity|].
  assert (IN : In r P1) by (apply r_exqP; left; reflexivity).
  destruct (recov_done s sub lp P1 P2 R dn Dr Ds r ops (set_at (s_store s) c (Some l')) q P1 P2 N SO) as [Ds' N'].
  - rewrite T, SC. exact OK.
  - intros x ->. discriminate.
  - intros x O. rewrite set_at_neq; [reflexivity|]. intros ->. apply target_off in O. auto.
  - intros x T'. rewrite T in T'. injection T' as <-. rewrite set_at_eq, SC. split; [exact SM|]. intros y [= <-]. exact W'.
  - exact r_P.
  - exact r_lp.
  - intros x I. apply r_exqP. right. exact I.
  - apply ex_ok_set; [congruence|]. apply (Forall_inv_tail r_exq).
  - intros x. specialize (r_T x). cbn [map app] in r_T. change (rq (Replay (length (s_wal s)), r, false)) with r in r_T.
    change (effs x (r :: ?h) ?o) with (effs x h (eff x r o)) in r_T. eapply same_trans; [|exact r_T]. apply effs_ext.
    destruct (ceqb c x) eqn:E.
    + apply ceqb_eq in E. subst x. rewrite set_at_eq, SC. exact SM.
    + apply ceqb_neq in E. rewrite set_at_neq by exact E. rewrite eff_off; [apply same_refl|].
      apply not_true_is_false. intros O. apply (on_target r c x T) in O. contradiction.
  - intros L x H. rewrite (r_tabs2 L x H). unfold set_at. destruct (ceqb c x) eqn:E; [|reflexivity].
    apply ceqb_eq in E. subst x. rewrite SC. reflexivity.
  - intros d I. left. apply r_db2, I.
  - rewrite <- (firstn_skipn (d_wal Dr) (s_wal s)), r_P. rewrite !in_app_iff. auto.
  - rewrite <- r_mail in N'. exact (settle _ _ _ _ _ _ _ _ _ N').
Qed.

(** ** The disk agent *)
Lemma recov_agent s sub lp P1 P2 R dn Dr Ds : recov s sub lp P1 P2 R dn Dr Ds -> exists s', agent s = Ok s' /\ inv s' sub.
Proof.
  intros N. unfold agent. pose proof N as X. destruct X. rewrite r_agent. destruct R as [|o R]; cbn [map].
  { exists s. split; [reflexivity|]. eapply settle, N. }
  cbn in r_apply. destruct (apply_op (s_disk s) o) as [k|] eqn:AO; [|discriminate]. cbn [rbind] in *.
  eexists. split; [reflexivity|]. apply (settle _ _ lp P1 P2 R dn Dr Ds). constructor; cbn; try assumption; auto.
  - discriminate.
  - destruct r_fix as [F|(F & _)]; [left; exact F|discriminate].
Qed.

(** ** Every step *)
Theorem inv_step s sub e : inv s sub -> allowed s e = true -> exists s', step s e = Ok s' /\ inv s' (sub ++ submitted [e]).
Proof.
  intros I A. assert (SN : forall r, submitted [Submit r] = [r]) by reflexivity.
  destruct I as [[C (V & FL & D0 & D1 & R & pre & X & Rq & Sc & Dn & N)]|[C (lp & P1 & P2 & R & dn & Dr & Ds & N)]];
    destruct e as [r| | | | |]; cbn [step allowed] in *; try (change (submitted [?e]) with (@nil request); rewrite app_nil_r).
  - eexists. split; [reflexivity|]. apply normal_inv.
    exists V, FL, D0, D1, R, pre, X, (Rq ++ [r]), Sc, Dn. apply norm_submit; assumption.
  - destruct (norm_disp _ _ _ _ _ _ _ _ _ _ _ _ N) as (s' & E & N'). exists s'. split; [exact E|apply normal_inv, N'].
  - destruct (norm_exec _ _ _ _ _ _ _ _ _ _ _ _ N) as (s' & E & N'). exists s'. split; [exact E|apply normal_inv, N'].
  - eexists. split; [reflexivity|]. apply normal_inv. eapply norm_log, N.
  - destruct (norm_agent _ _ _ _ _ _ _ _ _ _ _ _ N) as (s' & E & N'). exists s'. split; [exact E|apply normal_inv, N'].
  - eexists. split; [reflexivity|]. destruct (norm_crash _ _ _ _ _ _ _ _ _ _ _ _ N A) as (T1 & T2 & T3). apply restart_inv; assumption.
  - unfold safe_submit in A. rewrite C in A. discriminate.
  - apply (recov_disp _ _ _ _ _ _ _ _ _ N).
  - apply (recov_exec _ _ _ _ _ _ _ _ _ N).
  - eexists. split; [reflexivity|]. unfold log. rewrite (r_walq _ _ _ _ _ _ _ _ _ N). eapply settle, N.
  - apply (recov_agent _ _ _ _ _ _ _ _ _ N).
  - eexists. split; [reflexivity|]. unfold safe_crash in A. rewrite C in A.
    destruct N. apply restart_inv; [|assumption|assumption]. rewrite r_disk0; [assumption|]. destruct (s_last s); [discriminate|reflexivity].
Qed.

Lemma inv_fresh : inv fresh [].
Proof.
  apply normal_inv. exists [], [], empty_disk, empty_disk, [], [], [], [], [], [].
  constructor; cbn; auto.
  - constructor.
  - constructor.
  - intros c. exact I.
  - intros d. tauto.
  - constructor.
  - congruence.
  - intros c. split; reflexivity.
  - intros d. tauto.
  - tauto.
  - constructor.
  - exists []. constructor.
Qed.

Lemma inv_run es : forall s sub, inv s sub -> guarded s es = true -> exists s', run s es = Ok s' /\ inv s' (sub ++ submitted es).
Proof.
  induction es as [|e es IH]; intros s sub I G; cbn [run guarded] in *.
  - exists s. split; [reflexivity|]. rewrite app_nil_r. exact I.
  - apply andb_true_iff in G. destruct G as [A G]. destruct (inv_step s sub e I A) as (s1 & E & I1). rewrite E in *. cbn [rbind].
    destruct (IH s1 _ I1 G) as (s' & E' & I'). exists s'. split; [exact E'|].
    unfold submitted in *. cbn in *. rewrite app_nil_r in I'. rewrite <- app_assoc in I'. exact I'.
Qed.

Theorem survives es : guarded fresh es = true -> exists s, run fresh es = Ok s /\
  (idle s = true -> exists h, subseq (s_acked s) h /\ (exists rest, Permutation (h ++ rest) (submitted es)) /\
     forall c, same (visible s c) (effects h c)).
Proof.
  intros G. destruct (inv_run es fresh [] inv_fresh G) as (s & E & I). exists s. split; [exact E|]. intros ID.
  assert (N : normal s (submitted es)).
  { destruct I as [[_ N]|[C _]]; [exact N|]. unfold idle in ID. unfold recovering in C.
    destruct (s_mail s); [|discriminate]. destruct (s_exq s); discriminate. }
  exists (s_wal s). apply norm_visible; assumption.
Qed.

(** ** The messages under way are dealt with *)
Definition weight_msg (m : msg) : nat :=
  match m with Req _ => 5 | Loop rs _ => 1 + 5 * length rs | Done _ _ _ => 3 | Success _ _ _ => 1 end.
Fixpoint sum (l : list nat) : nat := match l with [] => 0 | n :: l' => n + sum l' end.
Definition weight (s : sys) : nat := sum (map weight_msg (s_mail s)) + 4 * length (s_exq s) + 2 * length (s_walq s).
Lemma sum_app a b : sum (a ++ b) = sum a + sum b.
Proof. induction a as [|x a IH]; cbn; [reflexivity|]. rewrite IH. lia. Qed.
Lemma weight_idle s : weight s = 0 -> idle s = true.
Proof.
  unfold weight, idle. destruct (s_mail s) as [|m q]; [|destruct m; cbn; lia].
  destruct (s_exq s); [|cbn; lia]. destruct (s_walq s); [reflexivity|cbn; lia].
Qed.
Lemma weight_tell s m : weight (tell s m) = weight s + weight_msg m.
Proof. unfold weight, tell. cbn. rewrite map_app, sum_app. cbn. lia. Qed.
Lemma weight_dispatch o r s s' : dispatch o r s = Ok s' -> weight s' <= weight s + 4.
Proof.
  unfold dispatch. destruct (check (s_cat s) r); [|intros [= <-]; lia].
  destruct r.
  - intros [= <-]. rewrite weight_tell. cbn. lia.
  - intros [= <-]. rewrite weight_tell. cbn. lia.
  - intros [= <-]. rewrite weight_tell. unfold weight. cbn. lia.
  - destruct (s_store s c); [|discriminate]. intros [= <-]. rewrite weight_tell. unfold weight. cbn. rewrite map_length. lia.
  - destruct (s_store s c); [|discriminate]. intros [= <-]. unfold weight. cbn. rewrite app_length. cbn. lia.
  - destruct (s_store s c); [|discriminate]. intros [= <-]. unfold weight. cbn. rewrite app_length. cbn. lia.
  - destruct (s_store s c); [|discriminate]. intros [= <-]. unfold weight. cbn. rewrite app_length. cbn. lia.
Qed.
Lemma weight_disp s s' : s_mail s <> [] -> disp s = Ok s' -> weight s' < weight s.
Proof.
  intros N. unfold disp. destruct (s_mail s) as [|m q] eqn:M; [congruence|].
  assert (W : weight s = weight_msg m + weight (with_mail s q)) by (unfold weight; rewrite M; cbn; lia).
  destruct m as [r|[|r rs] last|o r ops|r ops n].
  - intros E. apply weight_dispatch in E. rewrite W. cbn [weight_msg]. lia.
  - intros [= <-]. rewrite W. cbn [weight_msg length]. lia.
  - intros E. apply weight_dispatch in E.
    assert (W2 : weight (with_mail s (Loop rs last :: q)) = 1 + 5 * length rs + weight (with_mail s q)) by (unfold weight; cbn; lia).
    rewrite W. cbn [weight_msg length]. lia.
  - rewrite W. unfold weight. destruct o, r; intros [= <-]; cbn; rewrite ?app_length; cbn; lia.
  - intros [= <-]. rewrite W. unfold weight. cbn. lia.
Qed.
Lemma weight_exec s s' : s_exq s <> [] -> exec s = Ok s' -> weight s' < weight s.
Proof.
  intros N. unfold exec. destruct (s_exq s) as [|[[o r] g] q] eqn:M; [congruence|].
  assert (W : weight s = 4 + weight (with_exq s q)) by (unfold weight; rewrite M; cbn; lia).
  destruct g; [discriminate|]. destruct (target r) as [c|]; [|intros [= <-]; lia].
  cbn [s_store with_exq]. destruct (s_store s c) as [l|]; [|discriminate]. destruct (work r l) as [x|]; [|discriminate]. cbn [rbind].
  intros [= <-]. rewrite weight_tell. rewrite W. unfold weight. cbn. lia.
Qed.
Lemma weight_log s : s_walq s <> [] -> weight (log s) < weight s.
Proof.
  intros N. unfold log. destruct (s_walq s) as [|[r ops] q] eqn:M; [congruence|]. rewrite weight_tell. unfold weight. rewrite M. cbn. lia.
Qed.
Definition internal (e : event) : bool := match e with Disp | Exec | Log => true | _ => false end.
Lemma settles n : forall s sub, weight s <= n -> inv s sub ->
  exists es s', forallb internal es = true /\ guarded s es = true /\ run s es = Ok s' /\ idle s' = true.
Proof.
  induction n as [|n IH]; intros s sub W I.
  - exists [], s. split; [reflexivity|]. split; [reflexivity|]. split; [reflexivity|]. apply weight_idle. lia.
  - assert (K : forall e s1, internal e = true -> allowed s e = true -> step s e = Ok s1 -> inv s1 (sub ++ submitted [e]) -> weight s1 < weight s ->
      exists es s', forallb internal es = true /\ guarded s es = true /\ run s es = Ok s' /\ idle s' = true).
    { intros e s1 IE A E I1 L. destruct (IH s1 _ ltac:(lia) I1) as (es & s' & X1 & X2 & X3 & X4). exists (e :: es), s'. cbn.
      rewrite IE, A, E. cbn. auto. }
    destruct (idle s) eqn:ID; [exists [], s; auto|]. unfold idle in ID. destruct (s_mail s) eqn:M.
    + destruct (s_exq s) eqn:Q.
      * destruct (s_walq s) eqn:L; [discriminate|]. destruct (inv_step s sub Log I eq_refl) as (s1 & E & I1). cbn in E.
        apply (K Log s1); auto. injection E as <-. apply weight_log. congruence.
      * destruct (inv_step s sub Exec I eq_refl) as (s1 & E & I1). apply (K Exec s1); auto. apply weight_exec; [congruence|exact E].
    + destruct (inv_step s sub Disp I eq_refl) as (s1 & E & I1). apply (K Disp s1); auto. apply weight_disp; [congruence|exact E].
Qed.
Lemma run_app a : forall s b, run s (a ++ b) = do s' <- run s a; run s' b.
Proof. induction a as [|e a IH]; intros s b; cbn; [reflexivity|]. destruct (step s e); cbn; [apply IH|reflexivity]. Qed.
Lemma guarded_app a : forall s s' b, guarded s a = true -> run s a = Ok s' -> guarded s' b = true -> guarded s (a ++ b) = true.
Proof.
  induction a as [|e a IH]; intros s s' b G E H; cbn in *; [injection E as <-; exact H|].
  apply andb_true_iff in G. destruct G as [-> G]. destruct (step s e) as [s1|]; cbn in *; [|discriminate]. eapply IH; eassumption.
Qed.
Theorem comes_to_rest es : guarded fresh es = true -> exists es' s, forallb internal es' = true /\ guarded fresh (es ++ es') = true /\
  run fresh (es ++ es') = Ok s /\ idle s = true.
Proof.
  intros G. destruct (inv_run es fresh [] inv_fresh G) as (s1 & E & I).
  destruct (settles (weight s1) s1 _ (le_n _) I) as (es' & s & X1 & X2 & X3 & X4). exists es', s. split; [exact X1|].
  split; [eapply guarded_app; eassumption|]. split; [|exact X4]. rewrite run_app, E. exact X3.
Qed.
