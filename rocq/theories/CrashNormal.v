(** Normal work keeps its invariant, and a crash leaves a disk and a log from which a restart works. *)
From Coq Require Import List NArith ZArith Bool Lia Permutation.
From Verif Require Import Bytes Outcome.
From Verif Require Import QueryModel QuerySpec QueryProofs CrashModel CrashSpec CrashProofs CrashInv.
Import ListNotations.

Lemma perm_a {A} (r : A) a b c : Permutation ((r :: a) ++ b ++ c) (a ++ (b ++ [r]) ++ c).
Proof. rewrite <- (app_assoc b). cbn. rewrite (app_assoc a b (r :: c)). rewrite <- Permutation_middle. rewrite app_assoc. reflexivity. Qed.
Lemma perm_b {A} (r : A) a b c : Permutation ((r :: a) ++ b ++ c) (a ++ b ++ r :: c).
Proof. cbn. rewrite (app_assoc a b (r :: c)). rewrite <- Permutation_middle. rewrite app_assoc. reflexivity. Qed.
Lemma perm_c {A} (r : A) a b c : Permutation (a ++ (r :: b) ++ c) (r :: a ++ b ++ c).
Proof. cbn. rewrite <- Permutation_middle. reflexivity. Qed.

Lemma snoc4 {A} (a b c d : list A) x : a ++ b ++ c ++ d ++ [x] = (a ++ b ++ c ++ d) ++ [x].
Proof. rewrite <- !app_assoc. reflexivity. Qed.
Lemma snoc3 {A} (a b c : list A) x : a ++ b ++ c ++ [x] = (a ++ b ++ c) ++ [x].
Proof. rewrite <- !app_assoc. reflexivity. Qed.
Lemma snoc2 {A} (a b : list A) x : a ++ b ++ [x] = (a ++ b) ++ [x].
Proof. rewrite <- !app_assoc. reflexivity. Qed.
Lemma mid3 {A} (a b c : list A) x : a ++ b ++ x :: c = a ++ (b ++ [x]) ++ c.
Proof. rewrite <- !app_assoc. reflexivity. Qed.

Lemma subseq_app {A} (a b c : list A) : subseq a b -> subseq (a ++ c) (b ++ c).
Proof.
  induction 1 as [l|x a b S IH|x a b S IH]; cbn; try (constructor; assumption).
  induction l; cbn; [|constructor; assumption]. clear. induction c; constructor; assumption.
Qed.
Lemma subseq_skip {A} (a b c : list A) : subseq a b -> subseq a (b ++ c).
Proof. induction 1; cbn; constructor; assumption. Qed.

Lemma norm_calm s sub V FL D0 D1 R pre A Rq Sc Dn : norm s sub V FL D0 D1 R pre A Rq Sc Dn -> recovering s = false.
Proof.
  intros N. unfold recovering. rewrite (parts_recovering _ _ _ _ (n_mail _ _ _ _ _ _ _ _ _ _ _ _ N)). cbn.
  pose proof (n_exq _ _ _ _ _ _ _ _ _ _ _ _ N) as E. apply not_true_is_false. intros H. apply existsb_exists in H.
  destruct H as (x & I & H). rewrite Forall_forall in E. destruct (E x I) as [E1 _]. rewrite E1 in H. discriminate.
Qed.

(** The collection that the catalogue shows is the one in memory, when nothing under way creates or drops it. *)
Lemma in_flight_some s sub V FL D0 D1 R pre A Rq Sc Dn c : norm s sub V FL D0 D1 R pre A Rq Sc Dn ->
  (forall r, In r (map fst (map fst Sc ++ s_walq s ++ Dn)) -> on r c = true -> ddl r = false) ->
  is_some (s_store s c) = c_tabs (s_cat s) c.
Proof.
  intros N H. rewrite (mem_ok_some _ _ (n_store _ _ _ _ _ _ _ _ _ _ _ _ N c)), (n_tabs _ _ _ _ _ _ _ _ _ _ _ _ N c).
  rewrite (map_app fst FL), app_assoc, (effects_app (V ++ map fst FL)). apply effs_some. exact H.
Qed.
Lemma norm_has s sub V FL D0 D1 R pre A Rq Sc Dn c : norm s sub V FL D0 D1 R pre A Rq Sc Dn ->
  has_coll (s_cat s) c = c_tabs (s_cat s) c.
Proof.
  intros N. unfold has_coll. destruct (c_tabs (s_cat s) c) eqn:E; [|apply andb_false_r].
  rewrite andb_true_r. apply mem_N_In. apply (n_dbs _ _ _ _ _ _ _ _ _ _ _ _ N). apply hist_db.
  - apply chain_hist; [apply (n_hist _ _ _ _ _ _ _ _ _ _ _ _ N)|]. pose proof (n_chain _ _ _ _ _ _ _ _ _ _ _ _ N) as C.
    apply chain_app in C. apply C.
  - rewrite (n_tabs _ _ _ _ _ _ _ _ _ _ _ _ N) in E. intros Q. rewrite Q in E. discriminate.
Qed.

(** ** A statement arrives *)
Lemma norm_submit s sub V FL D0 D1 R pre A Rq Sc Dn r : norm s sub V FL D0 D1 R pre A Rq Sc Dn -> safe_submit s r = true ->
  norm (tell s (Req r)) (sub ++ [r]) V FL D0 D1 R pre A (Rq ++ [r]) Sc Dn.
Proof.
  intros N G. unfold safe_submit in G. rewrite !andb_true_iff in G. destruct G as [[[_ G2] G3] G4]. destruct N.
  constructor; try assumption.
  - cbn. apply parts_req. assumption.
  - cbn. apply apart_Forall in G3. unfold in_flight in G3.
    apply (pairs_perm (r :: Rq ++ map fst (map fst Sc ++ s_walq s ++ Dn) ++ map rq (s_exq s))).
    { rewrite <- app_assoc. cbn. apply Permutation_middle. }
    constructor; [|assumption]. rewrite Forall_forall in *. intros x I. apply G3.
    pose proof (parts_flight _ _ _ _ n_mail) as P. rewrite !in_app_iff.
    rewrite !map_app, !in_app_iff in I.
    destruct I as [I|[[I|[I|I]]|I]]; [| |right; right; exact I| |right; left; exact I]; left;
      apply (Permutation_in _ (Permutation_sym P)); rewrite !map_app, !in_app_iff; tauto.
  - cbn. apply Forall_app. split; [assumption|]. constructor; [|constructor]. split; [exact G2|].
    destruct r; auto. apply mem_N_In. exact G4.
  - cbn. destruct n_sub as [lost n_sub]. exists lost. rewrite <- n_sub.
    rewrite <- (app_assoc Rq [r]). cbn. rewrite <- !app_assoc.
    do 3 apply Permutation_app_head. rewrite app_assoc. apply Permutation_cons_append.
Qed.

(** ** The dispatcher *)
Lemma norm_store_done s V (all : list (request * list dop)) r ops c :
  mem_ok s (eff c r (effects (V ++ map fst all) c)) -> mem_ok s (effects (V ++ map fst (all ++ [(r, ops)])) c).
Proof. rewrite map_app, app_assoc. cbn. rewrite effects_snoc. auto. Qed.

Lemma gone_off c (q : list (origin * request * bool)) : Forall (fun x => on (rq x) c = false) q ->
  map (fun x => let '(o', r', gone) := x in (o', r', gone || on r' c)) q = q.
Proof.
  induction 1 as [|[[o r] g] q H F IH]; cbn; [reflexivity|]. unfold rq in H. cbn in H. rewrite IH, H, orb_false_r. reflexivity.
Qed.
Lemma ex_ok_store o m m' q : (forall c, m c <> None -> m' c <> None) -> Forall (ex_ok o m) q -> Forall (ex_ok o m') q.
Proof.
  intros H F. eapply Forall_impl; [|exact F]. intros x (A & B & C & D & c & E & G). repeat (split; [assumption|]). exists c. auto.
Qed.
Lemma ex_ok_set o m c a q : m c <> None -> Forall (ex_ok o m) q -> Forall (ex_ok o (set_at m c (Some a))) q.
Proof.
  intros S. apply ex_ok_store. intros x H. destruct (ceqb c x) eqn:E.
  - apply ceqb_eq in E. subst. rewrite set_at_eq. discriminate.
  - apply ceqb_neq in E. rewrite set_at_neq by exact E. exact H.
Qed.
Lemma mem_ok_step m V (all : list (request * list dop)) c r a :
  (forall c, mem_ok (m c) (effects (V ++ map fst all) c)) -> target r = Some c ->
  mem_ok a (eff c r (effects (V ++ map fst all) c)) -> forall ops c',
  mem_ok (set_at m c a c') (effects (V ++ map fst (all ++ [(r, ops)])) c').
Proof.
  intros H T M ops c'. apply norm_store_done. destruct (ceqb c c') eqn:E.
  - apply ceqb_eq in E. subst c'. rewrite set_at_eq. exact M.
  - apply ceqb_neq in E. rewrite set_at_neq by exact E. rewrite eff_off; [apply H|].
    apply not_true_is_false. intros O. apply (on_target r c c' T) in O. contradiction.
Qed.

(** A statement that is carried out by the dispatcher itself, or refused, or sent to the executor. *)
Lemma norm_req s sub V FL D0 D1 R pre A r m Rq Sc Dn : norm s sub V FL D0 D1 R pre A (r :: Rq) Sc Dn -> s_mail s = Req r :: m ->
  parts m Rq Sc Dn -> exists s', dispatch Client r (with_mail s m) = Ok s' /\ normal s' sub.
Proof.
  intros N M P. pose proof (fun c => norm_has _ _ _ _ _ _ _ _ _ _ _ _ c N) as HAS.
  pose proof (fun c => in_flight_some _ _ _ _ _ _ _ _ _ _ _ _ c N) as SOME.
  pose proof N as N'. destruct N'.
  destruct (pairs_hd _ _ n_pairs) as [CF PR]. rewrite Forall_forall in CF. fold (Rq ++ map fst (map fst Sc ++ s_walq s ++ Dn) ++ map rq (s_exq s)) in CF, PR.
  assert (CFL : forall x, In x (map fst (map fst Sc ++ s_walq s ++ Dn)) -> compat r x) by (intros x I; apply CF; rewrite !in_app_iff; auto).
  assert (CFE : forall x, In x (map rq (s_exq s)) -> compat r x) by (intros x I; apply CF; rewrite !in_app_iff; auto).
  destruct (Forall_inv n_reqs) as [SO RO].
  assert (HS : hist_ok (V ++ map fst (FL ++ map fst Sc ++ s_walq s ++ Dn))) by (apply chain_hist; assumption).
  (* the message is gone and nothing else *)
  assert (Q0 : normal (with_mail s m) sub).
  { exists V, FL, D0, D1, R, pre, A, Rq, Sc, Dn. constructor; try assumption.
    - apply (Forall_inv_tail n_reqs).
    - destruct n_sub as [lost n_sub]. exists (r :: lost). rewrite <- n_sub. cbn. do 2 apply Permutation_app_head.
      apply Permutation_sym. apply perm_b. }
  unfold dispatch. cbn [s_cat with_mail]. destruct (check (s_cat s) r) eqn:CK; [|eexists; split; [reflexivity|exact Q0]].
  (* a statement that is done at once *)
  assert (Q1 : forall mm ops, target r = None \/ (ddl r = true) ->
    (forall c, mem_ok (mm c) (eff c r (effects (V ++ map fst (FL ++ map fst Sc ++ s_walq s ++ Dn)) c))) ->
    (forall c, on r c = false -> mm c = s_store s c) ->
    valid (V ++ map fst (FL ++ map fst Sc ++ s_walq s ++ Dn)) r -> okops (before (V ++ map fst (FL ++ map fst Sc ++ s_walq s ++ Dn)) r) r ops ->
    normal (tell (with_store (with_mail s m) mm) (Done Client r ops)) sub).
  { intros mm ops DL MM OFF VA OK. exists V, FL, D0, D1, R, pre, A, Rq, Sc, (Dn ++ [(r, ops)]). constructor; cbn; try assumption.
    - apply parts_done, P.
    - rewrite snoc4. apply chain_app. split; [exact n_chain|]. cbn. auto.
    - intros c. rewrite snoc4. apply norm_store_done. apply MM.
    - rewrite snoc3, (map_app fst _ [_]). eapply pairs_perm; [|exact n_pairs]. apply perm_a.
    - apply (Forall_inv_tail n_reqs).
    - destruct DL as [DL|DL].
      + eapply ex_ok_store; [|exact n_exq]. intros c H. rewrite OFF by (apply on_none, DL). exact H.
      + rewrite Forall_forall in *. intros x I. destruct (n_exq x I) as (E1 & E2 & E3 & E4 & c & E5 & E6).
        repeat (split; [assumption|]). exists c. split; [exact E5|]. rewrite OFF; [exact E6|].
        apply not_true_is_false. intros O. destruct (CFE (rq x) (in_map _ _ _ I) c O (proj1 (target_on _ _) E5)). congruence.
    - destruct n_sub as [lost n_sub]. exists lost. rewrite <- n_sub. apply Permutation_app_head.
      rewrite snoc2, (map_app fst _ [_]), <- app_assoc. reflexivity. }
  (* a statement for the executor *)
  assert (Q2 : forall c, target r = Some c -> ddl r = false -> s_store s c <> None ->
    normal (with_exq (with_mail s m) (s_exq s ++ [(Client, r, false)])) sub).
  { intros c T DL S. exists V, FL, D0, D1, R, pre, A, Rq, Sc, Dn. constructor; cbn; try assumption.
    - rewrite (map_app rq). cbn. eapply pairs_perm; [|exact n_pairs].
      etransitivity; [apply perm_b|]. do 2 apply Permutation_app_head. apply Permutation_cons_append.
    - apply (Forall_inv_tail n_reqs).
    - apply Forall_app. split; [exact n_exq|]. constructor; [|constructor]. repeat (split; [first [reflexivity|assumption]|]).
      exists c. auto.
    - destruct n_sub as [lost n_sub]. exists lost. rewrite <- n_sub. do 2 apply Permutation_app_head.
      rewrite (map_app rq). apply Permutation_sym. apply perm_a. }
  set (H := V ++ map fst (FL ++ map fst Sc ++ s_walq s ++ Dn)) in *.
  assert (DML : forall c, target r = Some c -> ddl r = false -> has_coll (s_cat s) c = true -> s_store s c <> None).
  { intros c T DL HC. rewrite HAS in HC. rewrite <- SOME in HC; [destruct (s_store s c); cbn in HC; congruence|].
    intros x I O. apply (CFL x I c (proj1 (target_on _ _) T) O). }
  destruct r; cbn [check] in CK; try discriminate.
  - eexists. split; [reflexivity|]. refine (Q1 (s_store s) _ _ _ _ _ _); cbn; auto.
    split; auto.
  - assert (SN : s_store s c = None).
    { rewrite HAS in CK. apply negb_true_iff in CK. rewrite <- SOME in CK; [destruct (s_store s c); [discriminate|reflexivity]|].
      intros x I O. destruct (CFL x I c (ceqb_refl c) O). discriminate. }
    cbn [s_store with_mail]. rewrite SN. eexists. split; [reflexivity|]. apply Q1; cbn; auto.
    + intros c'. destruct (ceqb c c') eqn:E.
      * apply ceqb_eq in E. subst c'. rewrite set_at_eq. unfold eff. cbn. rewrite ceqb_refl.
        pose proof (n_store c) as X. rewrite SN in X. cbn in X. destruct (effects H c); [destruct X|]. split; [constructor|]. reflexivity.
      * rewrite eff_off by exact E. rewrite set_at_neq by (apply ceqb_neq; exact E). apply n_store.
    + intros c' E. rewrite set_at_neq by (apply ceqb_neq; exact E). reflexivity.
    + split; [reflexivity|]. apply n_dbs in RO. unfold H. rewrite map_app, app_assoc. apply in_or_app. auto.
  - rewrite HAS in CK. rewrite <- SOME in CK.
    2:{ intros x I O. destruct (CFL x I c (ceqb_refl c) O). discriminate. }
    cbn [s_store with_mail s_exq]. destruct (s_store s c) as [l|] eqn:SN; [|discriminate]. eexists. split; [reflexivity|].
    rewrite gone_off.
    2:{ rewrite Forall_forall. intros x I. apply not_true_is_false. intros O.
        destruct (CFE (rq x) (in_map _ _ _ I) c (ceqb_refl c) O). discriminate. }
    refine (Q1 (set_at (s_store s) c None) _ _ _ _ _ _); cbn; auto.
    + intros c'. destruct (ceqb c c') eqn:E.
      * apply ceqb_eq in E. subst c'. rewrite set_at_eq. unfold eff. cbn. rewrite ceqb_refl. exact I.
      * rewrite eff_off by exact E. rewrite set_at_neq by (apply ceqb_neq; exact E). apply n_store.
    + intros c' E. rewrite set_at_neq by (apply ceqb_neq; exact E). reflexivity.
    + split; auto.
  - specialize (DML c eq_refl eq_refl CK). cbn [s_store with_mail s_exq]. destruct (s_store s c) as [l|] eqn:SN; [|congruence].
    eexists. split; [reflexivity|]. apply (Q2 c eq_refl eq_refl). congruence.
  - specialize (DML c eq_refl eq_refl CK). cbn [s_store with_mail s_exq]. destruct (s_store s c) as [l|] eqn:SN; [|congruence].
    eexists. split; [reflexivity|]. apply (Q2 c eq_refl eq_refl). congruence.
Qed.

Lemma norm_disp s sub V FL D0 D1 R pre A Rq Sc Dn : norm s sub V FL D0 D1 R pre A Rq Sc Dn ->
  exists s', disp s = Ok s' /\ normal s' sub.
Proof.
  intros N. pose proof (n_mail _ _ _ _ _ _ _ _ _ _ _ _ N) as P. unfold disp.
  inversion P as [M E1 E2 E3|r m Rq' Sc' Dn' P' M E1 E2 E3|r ops n m Rq' Sc' Dn' P' M E1 E2 E3|r ops m Rq' Sc' Dn' P' M E1 E2 E3]; subst.
  - exists s. split; [reflexivity|]. exists V, FL, D0, D1, R, pre, A, [], [], []. exact N.
  - eapply norm_req; [exact N|symmetry; exact M|exact P'].
  - eexists. split; [reflexivity|]. destruct N.
    exists V, (FL ++ [(r, ops)]), D0, D1, R, pre, (A ++ ops ++ [DFix n]), Rq, Sc', Dn.
    assert (HF : map fst (FL ++ [(r, ops)]) = map fst FL ++ [r]) by apply map_app.
    assert (VA : valid (V ++ map fst FL) r /\ hist_ok (V ++ map fst FL)).
    { apply chain_app in n_chain. destruct n_chain as [C1 C2]. cbn in C2. split; [apply C2|]. apply chain_hist; assumption. }
    destruct VA as [VA HS].
    cbn in n_num. injection n_num as NN n_num.
    constructor; cbn; try assumption.
    + rewrite HF, n_wal. cbn. rewrite <- !app_assoc. reflexivity.
    + rewrite app_length. cbn. rewrite n_num. f_equal. lia.
    + rewrite <- app_assoc. exact n_chain.
    + rewrite <- app_assoc. exact n_store.
    + intros c. rewrite HF, app_assoc, effects_snoc. unfold update_catalog. destruct VA as [SO VA].
      pose proof (n_tabs c) as T. destruct r; cbn in SO; try discriminate; cbn [c_tabs].
      * rewrite eff_off by reflexivity. exact T.
      * apply n_dbs in VA. apply mem_N_In in VA. rewrite VA. unfold set_at, eff. cbn. destruct (ceqb c0 c); [|exact T].
        destruct (effects (V ++ map fst FL) c); reflexivity.
      * unfold set_at, eff. cbn. destruct (ceqb c0 c); [reflexivity|exact T].
      * rewrite eff_some_dml by reflexivity. exact T.
      * rewrite eff_some_dml by reflexivity. exact T.
    + intros d. rewrite HF, app_assoc, in_app_iff, <- n_dbs. destruct VA as [SO VA].
      destruct r; cbn in SO; try discriminate; cbn; try (split; [tauto|]; intros [H|[H|[]]]; [exact H|discriminate]).
      destruct (mem_N d0 (c_dbs (s_cat s))) eqn:E.
      * apply mem_N_In in E. split; [tauto|]. intros [H|[[= <-]|[]]]; assumption.
      * rewrite in_app_iff. cbn. split; intros [H|[H|[]]]; auto; right; left; congruence.
    + rewrite map_app in n_pairs. cbn in n_pairs. rewrite map_app.
      eapply pairs_perm in n_pairs; [|apply perm_c]. apply pairs_hd in n_pairs. apply n_pairs.
    + eapply Forall_impl; [|exact n_reqs]. intros x [X1 X2]. split; [exact X1|]. destruct x; auto.
      unfold update_catalog. destruct r; cbn; auto.
      * destruct (mem_N d (c_dbs (s_cat s))); [exact X2|]. apply in_or_app. auto.
      * destruct VA as [VA _]. discriminate.
    + rewrite n_agent, !map_app, <- !app_assoc. reflexivity.
    + rewrite NN in *. unfold front in *. destruct FL as [|[r0 ops0] FL]; cbn.
      * destruct n_A as [-> ->]. exists ops. cbn. rewrite Nat.add_0_r. auto.
      * destruct n_A as (post & E & ->). exists post. split; [exact E|]. rewrite groups_app, <- app_assoc. cbn.
        rewrite Nat.add_succ_r. reflexivity.
    + rewrite HF, app_assoc. apply subseq_app. exact n_acked.
  - assert (ND : (match r with DropDb _ => true | _ => false end) = false).
    { destruct N. apply chain_app in n_chain. destruct n_chain as [_ C]. apply chain_app in C. destruct C as [_ C].
      apply chain_app in C. destruct C as [_ C]. cbn in C. destruct C as ((SO & _) & _). destruct r; cbn in *; congruence. }
    assert (G : normal (with_log (with_mail s m) (s_walq s ++ [(r, ops)]) (s_wal s)) sub).
    { destruct N. exists V, FL, D0, D1, R, pre, A, Rq, Sc, Dn'. constructor; cbn; try assumption.
      - rewrite <- app_assoc. exact n_chain.
      - rewrite <- app_assoc. exact n_store.
      - rewrite <- app_assoc. exact n_pairs.
      - rewrite <- app_assoc. exact n_sub. }
    destruct r; try discriminate; eexists; (split; [reflexivity|exact G]).
Qed.

(** ** The executor *)
Lemma norm_exec s sub V FL D0 D1 R pre A Rq Sc Dn : norm s sub V FL D0 D1 R pre A Rq Sc Dn ->
  exists s', exec s = Ok s' /\ normal s' sub.
Proof.
  intros N. unfold exec. pose proof N as N'. destruct N'. destruct (s_exq s) as [|[[o r] gone] q] eqn:Q.
  { exists s. split; [reflexivity|]. exists V, FL, D0, D1, R, pre, A, Rq, Sc, Dn. exact N. }
  pose proof (Forall_inv n_exq) as (E1 & E2 & SO & DL & c & T & S). cbn in E1, E2. unfold rq in SO, DL, T. cbn in SO, DL, T. subst o gone.
  rewrite T. cbn [s_store with_exq]. destruct (s_store s c) as [l|] eqn:SC; [|congruence].
  pose proof (n_store c) as MO. rewrite SC in MO.
  destruct (effects (V ++ map fst (FL ++ map fst Sc ++ s_walq s ++ Dn)) c) as [x|] eqn:EX; [|destruct MO]. cbn in MO. destruct MO as [W G].
  destruct (work_ok r c l SO DL T W) as (l' & ops & WK & W' & SM & OK). rewrite WK. cbn [rbind fst snd].
  eexists. split; [reflexivity|]. exists V, FL, D0, D1, R, pre, A, Rq, Sc, (Dn ++ [(r, ops)]).
  assert (SX : same (Some (get l)) (Some x)) by exact G.
  constructor; cbn; try assumption.
  - apply parts_done. assumption.
  - rewrite snoc4. apply chain_app. split; [exact n_chain|]. cbn. split; [|split; [|exact I]].
    + split; [exact SO|]. destruct r; cbn in T; try discriminate; injection T as ->; congruence.
    + unfold before. rewrite T, EX. eapply okops_ext; [|exact OK]. exact SX.
  - intros c'. rewrite snoc4. apply mem_ok_step; [exact n_store|exact T|]. rewrite EX.
    eapply mem_ok_ext; [apply eff_ext, SX|]. eapply mem_ok_ext; [exact SM|]. cbn. auto.
  - rewrite snoc3, (map_app fst _ [_]). cbn. rewrite <- (app_assoc _ [r]). exact n_pairs.
  - apply ex_ok_set; [congruence|]. apply (Forall_inv_tail n_exq).
  - destruct n_sub as [lost n_sub]. exists lost. rewrite <- n_sub. apply Permutation_app_head.
    rewrite snoc2, (map_app fst _ [_]). cbn. rewrite <- (app_assoc _ [r]). apply Permutation_app_head.
    apply Permutation_sym. apply (perm_c r Rq (map rq q) lost).
Qed.

(** ** The log *)
Lemma norm_log s sub V FL D0 D1 R pre A Rq Sc Dn : norm s sub V FL D0 D1 R pre A Rq Sc Dn -> normal (log s) sub.
Proof.
  intros N. unfold log. pose proof N as N'. destruct N'. destruct (s_walq s) as [|[r ops] q] eqn:Q.
  { exists V, FL, D0, D1, R, pre, A, Rq, Sc, Dn. exact N. }
  exists V, FL, D0, D1, R, pre, A, Rq, (Sc ++ [(r, ops, S (length (s_wal s)))]), Dn.
  assert (HS : map fst (Sc ++ [(r, ops, S (length (s_wal s)))]) = map fst Sc ++ [(r, ops)]) by apply map_app.
  constructor; cbn; try assumption.
  - apply parts_succ. assumption.
  - rewrite HS, map_app. cbn. rewrite n_wal, <- !app_assoc. reflexivity.
  - rewrite map_app, n_num, app_length, Nat.add_1_r, seq_S. cbn. f_equal. rewrite n_wal, !app_length, !map_length. f_equal. lia.
  - rewrite HS, <- app_assoc. exact n_chain.
  - rewrite HS. intros c. rewrite <- (app_assoc (map fst Sc)). apply n_store.
  - rewrite HS, <- (app_assoc (map fst Sc)). exact n_pairs.
  - destruct n_sub as [lost n_sub]. exists lost. rewrite <- app_assoc. exact n_sub.
Qed.

(** ** The disk agent *)
Lemma norm_agent s sub V FL D0 D1 R pre A Rq Sc Dn : norm s sub V FL D0 D1 R pre A Rq Sc Dn ->
  exists s', agent s = Ok s' /\ normal s' sub.
Proof.
  intros N. unfold agent. pose proof N as N'. destruct N'. destruct R as [|o R].
  2:{ cbn in n_agent. rewrite n_agent. destruct n_Rpre as [X|X]; [discriminate|]. subst pre.
      cbn in n_R. destruct (apply_op (s_disk s) o) as [k|] eqn:AO; [|discriminate]. cbn in n_R. cbn [rbind].
      eexists. split; [reflexivity|]. exists V, FL, D0, D1, R, [], A, Rq, Sc, Dn. constructor; cbn; try assumption; auto.
      intros _ X. congruence. }
  cbn in n_agent, n_R. injection n_R as DD. destruct FL as [|[r ops] FL].
  { cbn in n_A. destruct n_A as [-> ->]. cbn in n_agent. rewrite n_agent. exists s. split; [reflexivity|].
    exists V, [], D0, D1, [], [], [], Rq, Sc, Dn. exact N. }
  cbn in n_A. destruct n_A as (post & EO & EA). cbn in n_chain. destruct n_chain as (VA & OK & CH).
  pose proof VA as [SO VB].
  destruct (apply_ok r ops D0 (before V r) SO OK) as (k' & AP & (U & WL) & DB & SM).
  { intros c T. unfold before. rewrite T. apply n_sim. }
  { intros c E. subst r. apply n_simdb. exact VB. }
  rewrite EO, apply_app, n_pre in AP. cbn [rbind] in AP. destruct post as [|o post].
  - cbn in AP. injection AP as AP. subst k'. rewrite app_nil_r in EO. subst pre. cbn in EA. subst A. cbn in n_agent. rewrite n_agent.
    cbn [apply_op rbind]. eexists. split; [reflexivity|].
    exists (V ++ [r]), FL, {| d_dbs := d_dbs D1; d_tabs := d_tabs D1; d_trees := d_trees D1; d_wal := S (length V) |},
      {| d_dbs := d_dbs D1; d_tabs := d_tabs D1; d_trees := d_trees D1; d_wal := S (length V) |}, [], [], (groups (S (S (length V))) FL), Rq, Sc, Dn.
    constructor; cbn; try assumption; auto.
    + rewrite n_wal, <- app_assoc. reflexivity.
    + rewrite n_num, app_length. cbn. f_equal. lia.
    + constructor; assumption.
    + intros c. rewrite <- app_assoc. apply n_store.
    + intros c. rewrite <- app_assoc. apply n_tabs.
    + intros d. rewrite <- app_assoc. apply n_dbs.
    + rewrite DD. reflexivity.
    + rewrite app_length, Nat.add_1_r. unfold front. destruct FL as [|[r1 ops1] FL]; [auto|]. exists ops1. auto.
    + congruence.
    + intros c. rewrite effects_snoc. apply (simc_cong D1); [reflexivity|reflexivity|]. destruct (on r c) eqn:O.
      * apply target_on in O. pose proof (SM c O) as X. unfold before in X. rewrite O in X. exact X.
      * rewrite eff_off by exact O. destruct (U c O) as [U1 U2]. eapply simc_cong; [symmetry; exact U1|symmetry; exact U2|apply n_sim].
    + intros d. rewrite in_app_iff, <- n_simdb, (DB d). cbn. split; intros [H|H]; auto. destruct H as [H|[]]. auto.
    + rewrite app_length. cbn. lia.
    + intros x I. change (In x (skipn (S (length V)) (V ++ [r]))) in I. rewrite skipn_all2 in I by (rewrite app_length; cbn; lia). destruct I.
    + rewrite <- app_assoc. exact n_acked.
  - cbn in AP. destruct (apply_op D1 o) as [k1|] eqn:AO; [|discriminate]. cbn [app] in EA. subst A. cbn in n_agent. rewrite n_agent.
    rewrite DD, AO. cbn [rbind]. eexists. split; [reflexivity|].
    exists V, ((r, ops) :: FL), D0, k1, [], (pre ++ [o]), (post ++ DFix (S (length V)) :: groups (S (S (length V))) FL), Rq, Sc, Dn.
    constructor; cbn; try assumption; auto.
    + rewrite apply_app, n_pre. cbn. rewrite AO. reflexivity.
    + exists post. rewrite <- app_assoc. auto.
    + intros _ _. rewrite last_last. reflexivity.
Qed.

(** ** A crash *)
Lemma norm_crash s sub V FL D0 D1 R pre A Rq Sc Dn : norm s sub V FL D0 D1 R pre A Rq Sc Dn -> safe_crash s = true ->
  restartable (s_disk s) (s_wal s) /\ subseq (s_acked s) (s_wal s) /\ exists lost, Permutation (s_wal s ++ lost) sub.
Proof.
  intros N G. unfold safe_crash in G. rewrite (norm_calm _ _ _ _ _ _ _ _ _ _ _ _ N) in G. rewrite !andb_true_iff in G.
  destruct G as [[[G1 G2] G3] G4]. destruct N. split; [|split].
  2:{ rewrite n_wal, app_assoc. apply subseq_skip. exact n_acked. }
  2:{ destruct n_sub as [lost n_sub]. eexists. exact n_sub. }
  assert (RN : R = []).
  { destruct R as [|o R]; [reflexivity|]. rewrite n_agent in G1. discriminate. }
  subst R. cbn in n_R, n_agent. injection n_R as DD. unfold pending in G4. rewrite DD in *.
  set (E := map fst FL ++ map fst (map fst Sc)) in *.
  assert (HW : hist_ok (s_wal s)).
  { rewrite n_wal. unfold E. rewrite <- map_app. apply chain_hist; [exact n_hist|]. rewrite app_assoc in n_chain. apply chain_app in n_chain. apply n_chain. }
  (* the part of the first statement on the disk *)
  assert (X : d_wal D1 = d_wal D0 /\
    (forall d, In d (d_dbs D1) -> In (CreateDb d) (s_wal s)) /\ (forall d, In d (d_dbs D0) -> In d (d_dbs D1)) /\
    (forall c, exists o1, simc D1 c o1 /\ same (effs c E o1) (effs c E (effects V c)) /\
       (is_some o1 = true -> In (CreateDb (fst c)) V) /\ (forallb (fun r => negb (on r c)) E = true -> same o1 (effects V c)))).
  { destruct FL as [|[r ops] FL].
    - destruct n_A as [-> ->]. cbn in n_pre. injection n_pre as <-. split; [reflexivity|]. split; [|split; [auto|]].
      + intros d I. apply n_simdb in I. rewrite n_wal. apply in_or_app. auto.
      + intros c. exists (effects V c). split; [apply n_sim|]. split; [apply same_refl|]. split; [|intros; apply same_refl].
        intros S. apply hist_db; [exact n_hist|]. intros Q. rewrite Q in S. discriminate.
    - destruct n_A as (post & EO & EA). cbn in n_chain. destruct n_chain as (VA & OK & CH). pose proof VA as [SO VB]. rewrite EO in OK.
      destruct (apply_part r pre post D0 D1 (before V r) SO OK) as ((U & WL) & DB1 & DB2 & SM).
      { intros c T. unfold before. rewrite T. apply n_sim. }
      { intros c Q. subst r. apply n_simdb. exact VB. }
      { exact n_pre. }
      { destruct pre as [|p0 pre]; [auto|]. right. destruct post as [|q post]; [auto|]. right.
        unfold in_batch in G2. rewrite (n_last eq_refl ltac:(discriminate)), n_agent, EA in G2. cbn [map app hd] in G2 |- *.
        apply negb_true_iff. exact G2. }
      split; [exact WL|]. split; [|split; [exact DB2|]].
      + intros d I. rewrite n_wal. apply in_or_app. destruct (DB1 d I) as [J| ->]; [left; apply n_simdb, J|]. right. left. reflexivity.
      + intros c. unfold E. cbn [map fst app]. change (effs c (r :: ?h) ?o) with (effs c h (eff c r o)). destruct (on r c) eqn:O.
        * pose proof O as T. apply target_on in T. destruct (SM c T) as (o1 & S1 & S2 & S3). unfold before in S2, S3. rewrite T in S2, S3.
          exists o1. split; [exact S1|]. split; [apply effs_ext, S2|]. split.
          { intros I. destruct (S3 I) as [Q| ->]; [|exact VB]. apply hist_db; [exact n_hist|]. intros Z. rewrite Z in Q. discriminate. }
          { cbn. rewrite O. discriminate. }
        * exists (effects V c). destruct (U c O) as [U1 U2]. split; [eapply simc_cong; [symmetry; exact U1|symmetry; exact U2|apply n_sim]|].
          split; [apply same_refl|]. split; [|intros; apply same_refl].
          intros I. apply hist_db; [exact n_hist|]. intros Z. rewrite Z in I. discriminate. }
  destruct X as (X1 & X2 & X3 & X4). apply all_apart_pairs in G4.
  assert (SK : skipn (d_wal D1) (s_wal s) = skipn (d_wal D0) V ++ E).
  { rewrite X1, n_wal, skipn_app. replace (d_wal D0 - length V) with 0 by lia. reflexivity. }
  constructor; try assumption.
  - rewrite X1, n_wal, app_length. lia.
  - intros c. destruct (X4 c) as (o1 & S1 & S2 & _ & S4). rewrite SK, effs_app, n_wal, effects_app.
    eapply same_trans; [|exact S2]. apply effs_ext. rewrite SK in G4. apply pairs_app in G4. destruct G4 as (_ & _ & G4).
    pose proof (simc_loaded _ _ _ S1) as L.
    destruct (existsb (fun r => on r c) (skipn (d_wal D0) V)) eqn:Q.
    + apply existsb_exists in Q. destruct Q as (q & Q1 & Q2).
      assert (OE : forallb (fun r => negb (on r c)) E = true).
      { apply forallb_forall. intros e I. apply negb_true_iff, not_true_is_false. intros O.
        destruct (G4 q e Q1 I c Q2 O) as [Z _]. destruct (n_w2 q Q1) as [Z' _]. congruence. }
      specialize (S4 OE). apply same_sym. eapply same_trans; [exact S4|].
      assert (IND : forall l, (forall r, In r l -> absorbed V r) -> forall o, same o (effects V c) -> same (effects V c) (effs c l o)).
      { induction l as [|r l IH]; intros AB o SO; [apply same_sym, SO|]. change (effs c (r :: l) o) with (effs c l (eff c r o)).
        apply IH; [intros; apply AB; right; assumption|]. eapply same_trans; [apply eff_ext, SO|]. apply AB. left. reflexivity. }
      apply IND; [exact n_w2|]. eapply same_trans; [exact L|exact S4].
    + rewrite effs_none; [exact L|]. intros r I. apply not_true_is_false. intros O.
      assert (existsb (fun r => on r c) (skipn (d_wal D0) V) = true) by (apply existsb_exists; exists r; auto). congruence.
  - intros d I. apply X3, n_simdb. rewrite X1, n_wal, firstn_app in I. replace (d_wal D0 - length V) with 0 in I by lia.
    cbn in I. rewrite app_nil_r in I. rewrite <- (firstn_skipn (d_wal D0) V). apply in_or_app. auto.
  - intros c T. destruct (X4 c) as (o1 & S1 & _ & S3 & _). apply X3, n_simdb, S3. destruct o1; [reflexivity|]. cbn in S1. destruct S1. congruence.
  - intros Q. rewrite Q in G3. destruct (s_wal s); [reflexivity|discriminate].
Qed.

(** ** Seen from outside *)
Lemma norm_visible s sub : normal s sub -> idle s = true ->
  subseq (s_acked s) (s_wal s) /\ (exists lost, Permutation (s_wal s ++ lost) sub) /\ forall c, same (visible s c) (effects (s_wal s) c).
Proof.
  intros (V & FL & D0 & D1 & R & pre & A & Rq & Sc & Dn & N) I. unfold idle in I.
  pose proof (fun c => norm_has _ _ _ _ _ _ _ _ _ _ _ _ c N) as HAS. destruct N.
  destruct (s_mail s) eqn:M; [|discriminate]. destruct (s_exq s) eqn:Q; [|discriminate]. destruct (s_walq s) eqn:L; [|discriminate].
  inversion n_mail; subst Rq Sc Dn. cbn in *. rewrite app_nil_r in n_wal. split; [rewrite n_wal; exact n_acked|]. split; [exact n_sub|].
  intros c. unfold visible. rewrite HAS, n_tabs, n_wal. specialize (n_store c). rewrite app_nil_r in n_store.
  destruct (effects (V ++ map fst FL) c) as [x|] eqn:EX; cbn; [|exact Logic.I]. apply mem_ok_same in n_store. exact n_store.
Qed.
