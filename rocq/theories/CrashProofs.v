(** Statements on contents, on the documents in memory and on the disk agree. *)
From Coq Require Import List NArith ZArith Bool Lia Permutation.
From Verif Require Import Bytes Outcome.
From Verif Require Import QueryModel QuerySpec QueryProofs CrashModel CrashSpec.
Import ListNotations.

Arguments get : simpl never.

(** ** Names *)
Lemma ceqb_eq a b : ceqb a b = true <-> a = b.
Proof.
  destruct a, b. unfold ceqb. cbn. rewrite andb_true_iff, !N.eqb_eq. split; [intros [-> ->]; reflexivity|]. intros [= -> ->]. auto.
Qed.
Lemma ceqb_refl c : ceqb c c = true.
Proof. apply ceqb_eq. reflexivity. Qed.
Lemma ceqb_neq a b : ceqb a b = false <-> a <> b.
Proof. rewrite <- ceqb_eq. destruct (ceqb a b); split; congruence. Qed.
Lemma ceqb_sym a b : ceqb a b = ceqb b a.
Proof. destruct (ceqb b a) eqn:E; [apply ceqb_eq in E; subst; apply ceqb_refl|]. apply ceqb_neq in E. apply ceqb_neq. congruence. Qed.
Lemma set_at_eq {A} (m : coll -> A) c a : set_at m c a c = a.
Proof. unfold set_at. rewrite ceqb_refl. reflexivity. Qed.
Lemma set_at_neq {A} (m : coll -> A) c a x : c <> x -> set_at m c a x = m x.
Proof. intros H. unfold set_at. apply ceqb_neq in H. rewrite H. reflexivity. Qed.
Lemma mem_N_In d l : mem_N d l = true <-> In d l.
Proof. unfold mem_N. rewrite existsb_exists. split; [intros (x & I & E); apply N.eqb_eq in E; subst; exact I|]. intros I. exists d. split; [exact I|apply N.eqb_refl]. Qed.
Lemma target_on r c : target r = Some c <-> on r c = true.
Proof. destruct r; cbn; try (split; congruence); rewrite ceqb_eq; split; congruence. Qed.
Lemma target_off r c : on r c = false -> target r <> Some c.
Proof. intros H E. apply target_on in E. congruence. Qed.
Lemma on_target r c c' : target r = Some c -> (on r c' = true <-> c = c').
Proof. intros T. rewrite <- target_on, T. split; congruence. Qed.
Lemma on_none r c : target r = None -> on r c = false.
Proof. intros T. destruct (on r c) eqn:E; [|reflexivity]. apply target_on in E. congruence. Qed.

(** ** Contents *)
Lemma same_refl a : same a a.
Proof. destruct a; cbn; auto. Qed.
Lemma same_sym a b : same a b -> same b a.
Proof. destruct a, b; cbn; auto. Qed.
Lemma same_trans a b c : same a b -> same b c -> same a c.
Proof. destruct a, b, c; cbn; try tauto. intros H K i. rewrite H. apply K. Qed.
Lemma same_some a b : same a b -> is_some a = is_some b.
Proof. destruct a, b; cbn; tauto. Qed.

Lemma taken_ext k k' b : (forall i, k i = k' i) -> taken k b = taken k' b.
Proof. intros E. unfold taken. induction b as [|d b IH]; cbn; [reflexivity|]. rewrite IH, E. reflexivity. Qed.
Lemma eff_ext c r a b : same a b -> same (eff c r a) (eff c r b).
Proof.
  intros H. unfold eff. destruct (on r c); [|exact H].
  destruct r; destruct a as [x|], b as [y|]; cbn in *; try tauto; intros i.
  - unfold put_batch. rewrite (taken_ext x y batch H). destruct (taken y batch); [apply H|].
    destruct (get (rev batch) i); [reflexivity|apply H].
  - unfold drop_where. rewrite H. reflexivity.
Qed.
Lemma effs_ext c h : forall a b, same a b -> same (effs c h a) (effs c h b).
Proof. induction h as [|r h IH]; cbn; intros a b H; [exact H|]. apply IH, eff_ext, H. Qed.
Lemma effs_app c h h' o : effs c (h ++ h') o = effs c h' (effs c h o).
Proof. apply fold_left_app. Qed.
Lemma effs_snoc c h r o : effs c (h ++ [r]) o = eff c r (effs c h o).
Proof. apply fold_left_app. Qed.
Lemma eff_off c r o : on r c = false -> eff c r o = o.
Proof. unfold eff. intros ->. reflexivity. Qed.
Lemma effs_off c h o : forallb (fun r => negb (on r c)) h = true -> effs c h o = o.
Proof.
  revert o. induction h as [|r h IH]; cbn; intros o H; [reflexivity|]. apply andb_true_iff in H. destruct H as [H1 H2].
  apply negb_true_iff in H1. rewrite eff_off by exact H1. apply IH, H2.
Qed.
Lemma eff_some_dml c r o : ddl r = false -> is_some (eff c r o) = is_some o.
Proof. unfold eff. destruct (on r c); [|reflexivity]. destruct r, o; cbn; congruence. Qed.

Lemma get_In l i d : get l i = Some d -> In d l /\ did d = i.
Proof. intros H. apply find_some in H. destruct H as [I E]. apply N.eqb_eq in E. auto. Qed.
Lemma get_none l i : get l i = None <-> ~ In i (ids l).
Proof.
  unfold get. split.
  - intros H I. apply in_map_iff in I. destruct I as (d & E & I). pose proof (find_none _ _ H d I) as K. cbn in K.
    apply N.eqb_neq in K. auto.
  - intros H. destruct (find _ l) as [d|] eqn:E; [|reflexivity]. exfalso. apply H. apply find_some in E. destruct E as [I E].
    apply N.eqb_eq in E. rewrite <- E. apply in_map, I.
Qed.
Lemma has_get l i : has_id l i = is_some (get l i).
Proof.
  destruct (get l i) as [d|] eqn:E; cbn.
  - apply get_In in E. destruct E as [I <-]. apply has_id_In, in_map, I.
  - apply not_true_is_false. intros H. apply has_id_In in H. apply get_none in E. auto.
Qed.
Lemma In_get l d : NoDup (ids l) -> In d l -> get l (did d) = Some d.
Proof.
  unfold get. induction l as [|x l IH]; cbn; [tauto|]. intros N I. inversion N as [|? ? A B]; subst.
  destruct (N.eqb_spec (did x) (did d)) as [E|E].
  - destruct I as [->|I]; [reflexivity|]. exfalso. apply A. rewrite E. apply in_map, I.
  - destruct I as [->|I]; [congruence|]. auto.
Qed.
Lemma get_iff l l' : NoDup (ids l) -> NoDup (ids l') -> forall i, (forall d, did d = i -> In d l <-> In d l') -> get l i = get l' i.
Proof.
  intros N N' i H. destruct (get l i) as [d|] eqn:E.
  - apply get_In in E. destruct E as [I <-]. symmetry. apply In_get; [exact N'|]. apply H; auto.
  - symmetry. apply get_none. intros I. apply in_map_iff in I. destruct I as (d & D & I).
    apply get_none in E. apply E. rewrite <- D. apply in_map. apply (H d D). exact I.
Qed.
Lemma distinct_NoDup l : distinct l = true <-> NoDup l.
Proof.
  induction l as [|i l IH]; cbn; [split; [constructor|reflexivity]|]. rewrite andb_true_iff, negb_true_iff, IH. split.
  - intros [A B]. constructor; [|exact B]. intros I. apply mem_N_In in I. unfold mem_N in I. congruence.
  - intros H. inversion H as [|? ? A B]; subst. split; [|exact B]. apply not_true_is_false. intros E. apply A.
    apply mem_N_In. exact E.
Qed.

Lemma get_cons d t i : get (d :: t) i = if N.eqb (did d) i then Some d else get t i.
Proof. reflexivity. Qed.
Lemma get_app a b i : get (a ++ b) i = match get a i with Some d => Some d | None => get b i end.
Proof. unfold get. induction a as [|x a IH]; cbn; [reflexivity|]. destruct (N.eqb (did x) i); [reflexivity|exact IH]. Qed.
Lemma get_rev b i : NoDup (ids b) -> get (rev b) i = get b i.
Proof.
  intros N. apply get_iff; [|exact N|].
  - unfold ids. rewrite map_rev. apply NoDup_rev. exact N.
  - intros d _. rewrite <- in_rev. reflexivity.
Qed.
Lemma get_erase j t i : get (erase_id j t) i = if N.eqb i j then None else get t i.
Proof.
  unfold get, erase_id. induction t as [|d t IH]; cbn; [destruct (N.eqb i j); reflexivity|].
  destruct (N.eqb_spec (did d) j) as [E|E]; cbn.
  - rewrite IH. destruct (N.eqb_spec i j) as [E'|E']; [reflexivity|].
    destruct (N.eqb_spec (did d) i); [congruence|reflexivity].
  - rewrite IH. destruct (N.eqb_spec (did d) i), (N.eqb_spec i j); try congruence; reflexivity.
Qed.
Lemma get_put d l i : well_stored l -> get (put d l) i = if N.eqb i (did d) then Some d else get l i.
Proof.
  intros W. pose proof (well_stored_NoDup _ (put_well_stored d l W)) as N. destruct (N.eqb_spec i (did d)) as [->|E].
  - apply In_get; [exact N|]. apply (put_In d l d W). auto.
  - apply get_iff; [exact N|apply well_stored_NoDup, W|]. intros x X. rewrite (put_In d l x W). split.
    + intros [->|[I _]]; congruence.
    + intros I. right. split; [exact I|]. congruence.
Qed.
Lemma get_put_all b : forall l, well_stored l -> forall i,
  get (fold_left (fun s d => put d s) b l) i = match get (rev b) i with Some d => Some d | None => get l i end.
Proof.
  induction b as [|d b IH]; intros l W i; cbn [fold_left rev]; [reflexivity|].
  rewrite (IH _ (put_well_stored d l W)), get_app, (get_put d l i W).
  destruct (get (rev b) i); [reflexivity|]. rewrite get_cons, N.eqb_sym. destruct (N.eqb (did d) i); reflexivity.
Qed.
Lemma taken_has l b : existsb (fun d => has_id l (did d)) b = taken (get l) b.
Proof. unfold taken. induction b as [|d b IH]; cbn; [reflexivity|]. rewrite IH, has_get. reflexivity. Qed.
Lemma get_filter f l i : NoDup (ids l) -> get (filter f l) i = match get l i with Some d => if f d then Some d else None | None => None end.
Proof.
  unfold get. induction l as [|d l IH]; cbn; [reflexivity|]. intros N. inversion N as [|? ? A B]; subst. specialize (IH B).
  destruct (N.eqb_spec (did d) i) as [E|E].
  - destruct (f d); cbn.
    + destruct (N.eqb_spec (did d) i); [reflexivity|contradiction].
    + rewrite IH. destruct (find _ l) as [x|] eqn:F; [|reflexivity]. exfalso. apply A. rewrite E.
      apply find_some in F. destruct F as [I F]. apply N.eqb_eq in F. rewrite <- F. apply in_map, I.
  - destruct (f d); cbn; [|exact IH]. destruct (N.eqb_spec (did d) i); [contradiction|exact IH].
Qed.

(** Loading a tree. *)
Lemma load_fold t : forall l, well_stored l ->
  let l' := fold_left (fun s d => if has_id s (did d) then s else put d s) t l in
  well_stored l' /\ forall i, get l' i = match get l i with Some d => Some d | None => get t i end.
Proof.
  induction t as [|d t IH]; intros l W; cbn [fold_left].
  - split; [exact W|]. intros i. destruct (get l i); reflexivity.
  - destruct (has_id l (did d)) eqn:H.
    + destruct (IH l W) as [W' G]. split; [exact W'|]. intros i. rewrite G. rewrite has_get in H.
      destruct (get l i) eqn:E; [reflexivity|]. rewrite get_cons. destruct (N.eqb_spec (did d) i) as [D|D]; [|reflexivity].
      rewrite D, E in H. discriminate.
    + destruct (IH _ (put_well_stored d l W)) as [W' G]. split; [exact W'|]. intros i. rewrite G, (get_put d l i W).
      rewrite get_cons, (N.eqb_sym i). rewrite has_get in H. destruct (N.eqb_spec (did d) i) as [D|D].
      * rewrite D in H. destruct (get l i); [discriminate|reflexivity].
      * reflexivity.
Qed.
Lemma load_well t : well_stored (load_docs t).
Proof. apply (load_fold t []). constructor. Qed.
Lemma load_get t i : get (load_docs t) i = get t i.
Proof. apply (load_fold t [] ltac:(constructor)). Qed.

(** ** The commands a statement sends to the disk *)
Definition okops (o : option content) (r : request) (ops : list dop) : Prop :=
  match r with
  | CreateDb d => ops = [DAppendDb d]
  | CreateColl c => ops = [DAppendColl c]
  | DropColl c => ops = [DRemoveColl c]
  | Insert c b => exists k, o = Some k /\ ops = if taken k b then [] else map (DWrite c) b
  | Delete c p _ => exists k l, o = Some k /\ ops = map (DRemove c) l /\ forall i, In i l <-> exists d, k i = Some d /\ p d = true
  | _ => False
  end.
Lemma okops_ext o o' r ops : same o o' -> okops o r ops -> okops o' r ops.
Proof.
  intros S. destruct r; cbn; try tauto.
  - intros (k & -> & E). destruct o' as [k'|]; [|destruct S]. exists k'. split; [reflexivity|].
    rewrite E, (taken_ext k k' batch S). reflexivity.
  - intros (k & l & -> & E & H). destruct o' as [k'|]; [|destruct S]. exists k', l. split; [reflexivity|]. split; [exact E|].
    intros i. rewrite H, (S i). reflexivity.
Qed.

Lemma work_ok r c l : statement_ok r = true -> ddl r = false -> target r = Some c -> well_stored l ->
  exists l' ops, work r l = Ok (l', ops) /\ well_stored l' /\
    same (Some (get l')) (eff c r (Some (get l))) /\ okops (Some (get l)) r ops.
Proof.
  intros S D T W. pose proof (proj1 (target_on _ _) T) as O. unfold eff. rewrite O.
  destruct r; try discriminate; cbn [work].
  - eexists _, _. split; [reflexivity|]. split; [apply insert_well, W|]. split.
    + cbn. intros i. unfold put_batch, insert, primary_key_scan. rewrite taken_has.
      destruct (taken (get l) batch); cbn [fst]; [reflexivity|]. apply get_put_all, W.
    + cbn. exists (get l). split; [reflexivity|]. unfold primary_key_scan. rewrite taken_has.
      cbn in T. injection T as ->. destruct (taken (get l) batch); reflexivity.
  - cbn in S. apply Z.eqb_eq in S. subst limit. destruct (delete_where (fun d => Ok (p d)) p l W ltac:(auto)) as (fd & E & F & P).
    rewrite E. cbn [rbind found]. destruct (delete l fd) as [l' dl] eqn:DL. cbn [fst snd] in F, P. subst l'.
    eexists _, _. split; [reflexivity|]. split; [apply ids_filter_sorted, W|]. split.
    + cbn. intros i. rewrite get_filter by (apply well_stored_NoDup, W). unfold drop_where.
      destruct (get l i) as [d|]; [|reflexivity]. destruct (p d); reflexivity.
    + cbn. exists (get l), dl. split; [reflexivity|]. split; [cbn in T; injection T as ->; reflexivity|]. intros i.
      assert (I : In i dl <-> In i (ids (filter p l))) by (split; apply Permutation_in; [|apply Permutation_sym]; exact P).
      rewrite I. unfold ids. rewrite in_map_iff. split.
      * intros (d & <- & J). apply filter_In in J. exists d. split; [|apply J]. apply In_get; [apply well_stored_NoDup, W|apply J].
      * intros (d & G & Pd). apply get_In in G. exists d. split; [apply G|]. apply filter_In. split; [apply G|exact Pd].
Qed.

(** ** The disk *)
Fixpoint apply_all (k : disk) (ops : list dop) : res disk :=
  match ops with [] => Ok k | o :: ops' => do k' <- apply_op k o; apply_all k' ops' end.
Lemma apply_app k a b : apply_all k (a ++ b) = do k' <- apply_all k a; apply_all k' b.
Proof. revert k. induction a as [|o a IH]; intros k; cbn; [reflexivity|]. destruct (apply_op k o); cbn; [apply IH|reflexivity]. Qed.

Definition simc (k : disk) (c : coll) (o : option content) : Prop :=
  match o with
  | None => d_tabs k c = false /\ d_trees k c = None
  | Some x => d_tabs k c = true /\ exists t, d_trees k c = Some t /\ forall i, get t i = x i
  end.
Lemma simc_ext k c o o' : same o o' -> simc k c o -> simc k c o'.
Proof. destruct o, o'; cbn; try tauto. intros S (A & t & B & C). split; [exact A|]. exists t. split; [exact B|]. intros i. rewrite C. apply S. Qed.
Lemma simc_cong k k' c o : d_tabs k c = d_tabs k' c -> d_trees k c = d_trees k' c -> simc k c o -> simc k' c o.
Proof. intros A B. unfold simc. rewrite A, B. auto. Qed.
Lemma simc_same k c o o' : simc k c o -> simc k c o' -> same o o'.
Proof.
  destruct o, o'; cbn; try (intros (A & _) (B & _); congruence); [|tauto].
  intros (_ & t & A & B) (_ & t' & A' & B') i. rewrite A in A'. injection A' as <-. rewrite <- B. apply B'.
Qed.
(** What a restart reads of a collection. *)
Definition loaded (k : disk) (c : coll) : option content := if d_tabs k c then Some (get (tree_or_new k c)) else None.
Lemma simc_loaded k c o : simc k c o -> same (loaded k c) o.
Proof.
  unfold loaded, tree_or_new. destruct o; cbn; intros [-> H]; cbn; [|exact I]. destruct H as (t & -> & H). exact H.
Qed.
Lemma reopen_simc k c : simc (reopen k) c (loaded k c).
Proof.
  unfold loaded. destruct (d_tabs k c) eqn:E; cbn; rewrite E; [|auto]. split; [reflexivity|]. eexists. split; [reflexivity|]. auto.
Qed.

(** Other collections, the databases and the recovery point. *)
Definition untouched (r : request) (k k' : disk) : Prop :=
  (forall c, on r c = false -> d_tabs k' c = d_tabs k c /\ d_trees k' c = d_trees k c) /\ d_wal k' = d_wal k.
Definition dbs_after (r : request) (k k' : disk) : Prop := forall d, In d (d_dbs k') <-> In d (d_dbs k) \/ r = CreateDb d.
Lemma list_db_In k d x : In x (d_dbs (list_db k d)) <-> In x (d_dbs k) \/ d = x.
Proof.
  cbn. destruct (mem_N d (d_dbs k)) eqn:E; [|rewrite in_app_iff; cbn; tauto]. apply mem_N_In in E. split; [auto|]. intros [H| <-]; auto.
Qed.

Lemma apply_writes c b : forall k x, simc k c (Some x) -> NoDup (ids b) -> (forall i, In i (ids b) -> x i = None) ->
  exists k', apply_all k (map (DWrite c) b) = Ok k' /\ d_dbs k' = d_dbs k /\ d_wal k' = d_wal k /\
    (forall c', c <> c' -> d_tabs k' c' = d_tabs k c' /\ d_trees k' c' = d_trees k c') /\
    simc k' c (Some (fun i => match get b i with Some d => Some d | None => x i end)).
Proof.
  induction b as [|d b IH]; intros k x S N F; cbn [map apply_all].
  - exists k. split; [reflexivity|]. split; [reflexivity|]. split; [reflexivity|]. split; [auto|]. exact S.
  - cbn in S. destruct S as (A & t & B & C). inversion N as [|? ? N1 N2]; subst. cbn [apply_op]. rewrite B. cbn [rbind].
    unfold tree_or_new. rewrite B.
    destruct (IH (set_tree k c (Some (t ++ [d]))) (fun i => if N.eqb i (did d) then Some d else x i)) as (k' & E & D & Wl & U & S').
    + cbn. split; [exact A|]. eexists. rewrite set_at_eq. split; [reflexivity|]. intros i. rewrite get_app, C.
      destruct (N.eqb_spec i (did d)) as [->|Ne].
      * rewrite (F (did d)) by (left; reflexivity). unfold get. cbn. rewrite N.eqb_refl. reflexivity.
      * destruct (x i); [reflexivity|]. unfold get. cbn. destruct (N.eqb_spec (did d) i); [congruence|reflexivity].
    + exact N2.
    + intros i I. destruct (N.eqb_spec i (did d)) as [->|Ne]; [contradiction|]. apply F. right. exact I.
    + exists k'. split; [exact E|]. split; [exact D|]. split; [exact Wl|]. split.
      * intros c' Ne. destruct (U c' Ne) as [U1 U2]. cbn in U1, U2. rewrite set_at_neq in U2 by exact Ne. auto.
      * eapply simc_ext; [|exact S']. cbn. intros i. rewrite get_cons.
        rewrite (N.eqb_sym (did d)). destruct (N.eqb_spec i (did d)) as [->|Ne].
        { assert (get b (did d) = None) as -> by (apply get_none; exact N1). reflexivity. }
        { reflexivity. }
Qed.
Lemma apply_removes c l : forall k x, simc k c (Some x) ->
  exists k', apply_all k (map (DRemove c) l) = Ok k' /\ d_dbs k' = d_dbs k /\ d_wal k' = d_wal k /\
    (forall c', c <> c' -> d_tabs k' c' = d_tabs k c' /\ d_trees k' c' = d_trees k c') /\
    simc k' c (Some (fun i => if mem_N i l then None else x i)).
Proof.
  induction l as [|j l IH]; intros k x S; cbn [map apply_all].
  - exists k. split; [reflexivity|]. split; [reflexivity|]. split; [reflexivity|]. split; [auto|]. exact S.
  - cbn in S. destruct S as (A & t & B & C). cbn [apply_op]. rewrite B. cbn [rbind].
    destruct (IH (set_tree k c (Some (erase_id j t))) (fun i => if N.eqb i j then None else x i)) as (k' & E & D & Wl & U & S').
    + cbn. split; [exact A|]. eexists. rewrite set_at_eq. split; [reflexivity|]. intros i. rewrite get_erase, C. reflexivity.
    + exists k'. split; [exact E|]. split; [exact D|]. split; [exact Wl|]. split.
      * intros c' Ne. destruct (U c' Ne) as [U1 U2]. cbn in U1, U2. rewrite set_at_neq in U2 by exact Ne. auto.
      * eapply simc_ext; [|exact S']. cbn. intros i. unfold mem_N. destruct (N.eqb i j), (existsb (N.eqb i) l); reflexivity.
Qed.

(** A whole statement reaches the disk. *)
Lemma apply_ok r ops k o : statement_ok r = true -> okops o r ops ->
  (forall c, target r = Some c -> simc k c o) -> (forall c, r = CreateColl c -> In (fst c) (d_dbs k)) ->
  exists k', apply_all k ops = Ok k' /\ untouched r k k' /\ dbs_after r k k' /\
    (forall c, target r = Some c -> simc k' c (eff c r o)).
Proof.
  intros SO OK S DB. unfold untouched, dbs_after, eff. destruct r; try discriminate; cbn [okops target on] in *.
  - subst ops. cbn [apply_all apply_op rbind]. eexists. split; [reflexivity|]. split; [split; [auto|reflexivity]|]. split.
    + intros x. rewrite list_db_In. split; intros [H|H]; auto; right; congruence.
    + discriminate.
  - subst ops. cbn [apply_all apply_op rbind]. eexists. split; [reflexivity|]. specialize (DB c eq_refl).
    apply mem_N_In in DB. specialize (S c eq_refl). unfold list_coll. cbn [d_dbs set_tree]. rewrite DB. cbn.
    split; [split; [|reflexivity]|split].
    + intros x E. apply ceqb_neq in E. rewrite !set_at_neq by exact E. auto.
    + intros d. split; [auto|]. intros [H|H]; [exact H|discriminate].
    + intros x [= <-]. rewrite ceqb_refl. destruct o as [x|]; cbn in *; rewrite !set_at_eq; (split; [reflexivity|]).
      * destruct S as (_ & t & B & C). exists t. unfold tree_or_new. rewrite B. auto.
      * destruct S as (_ & B). unfold tree_or_new. rewrite B. exists []. auto.
  - subst ops. cbn [apply_all apply_op rbind]. eexists. split; [reflexivity|]. cbn.
    split; [split; [|reflexivity]|split].
    + intros x E. apply ceqb_neq in E. rewrite !set_at_neq by exact E. auto.
    + intros d. split; [auto|]. intros [H|H]; [exact H|discriminate].
    + intros x [= <-]. rewrite ceqb_refl. cbn. rewrite !set_at_eq. auto.
  - destruct OK as (x & -> & ->). specialize (S c eq_refl). cbn in SO. apply distinct_NoDup in SO. fold (ids batch) in SO.
    assert (Q : forall d k', d_dbs k' = d_dbs k -> (In d (d_dbs k') <-> In d (d_dbs k) \/ Insert c batch = CreateDb d)).
    { intros d k' ->. split; [auto|]. intros [H|H]; [exact H|discriminate]. }
    destruct (taken x batch) eqn:T.
    + exists k. split; [reflexivity|]. split; [split; [auto|reflexivity]|]. split; [intros d; apply Q; reflexivity|].
      intros c' [= <-]. rewrite ceqb_refl. cbn [option_map]. unfold put_batch. rewrite T. exact S.
    + destruct (apply_writes c batch k x S SO) as (k' & E & D & Wl & U & S').
      { intros i I. apply in_map_iff in I. destruct I as (d & <- & I). destruct (x (did d)) eqn:X; [|reflexivity].
        assert (taken x batch = true); [|congruence]. apply existsb_exists. exists d. rewrite X. auto. }
      exists k'. split; [exact E|]. split; [split; [|exact Wl]|].
      { intros c' E'. apply U. apply ceqb_neq. exact E'. }
      split; [intros d; apply Q, D|]. intros c' [= <-]. rewrite ceqb_refl. cbn [option_map].
      eapply simc_ext; [|exact S']. cbn. intros i. unfold put_batch. rewrite T, get_rev by exact SO. reflexivity.
  - destruct OK as (x & l & -> & -> & H). specialize (S c eq_refl).
    destruct (apply_removes c l k x S) as (k' & E & D & Wl & U & S').
    exists k'. split; [exact E|]. split; [split; [|exact Wl]|].
    { intros c' E'. apply U. apply ceqb_neq. exact E'. }
    split.
    { intros d. rewrite D. split; [auto|]. intros [I|I]; [exact I|discriminate]. }
    intros c' [= <-]. rewrite ceqb_refl. cbn [option_map]. eapply simc_ext; [|exact S']. cbn. intros i. unfold drop_where.
    specialize (H i). rewrite <- mem_N_In in H. destruct (mem_N i l).
    + destruct H as [H _]. destruct (H eq_refl) as (d & -> & ->). reflexivity.
    + destruct (x i) as [d|]; [|reflexivity]. destruct (p d) eqn:Pd; [|reflexivity].
      destruct H as [_ H]. symmetry. exfalso. discriminate H. exists d. auto.
Qed.

(** Done twice is done once. *)
Lemma eff_idem c r o : statement_ok r = true -> same (eff c r (eff c r o)) (eff c r o).
Proof.
  intros SO. unfold eff. destruct (on r c); [|apply same_refl]. destruct r; try apply same_refl.
  - destruct o; cbn; auto.
  - destruct o as [x|]; cbn; [|auto]. intros i. unfold put_batch at 1. destruct (taken (put_batch batch x) batch) eqn:T; [reflexivity|].
    unfold put_batch. destruct (taken x batch) eqn:T'.
    + destruct (get (rev batch) i); [|reflexivity]. exfalso. unfold put_batch in T. rewrite T' in T. congruence.
    + destruct (get (rev batch) i) as [d|] eqn:G; [|reflexivity]. reflexivity.
  - destruct o as [x|]; cbn; [|auto]. intros i. unfold drop_where. destruct (x i) as [d|]; [|reflexivity].
    destruct (p d) eqn:E; [reflexivity|]. rewrite E. reflexivity.
Qed.

(** A part of a statement reaches the disk, and the statement is done again. *)
Lemma apply_part r pre post k k1 o : statement_ok r = true -> okops o r (pre ++ post) ->
  (forall c, target r = Some c -> simc k c o) -> (forall c, r = CreateColl c -> In (fst c) (d_dbs k)) ->
  apply_all k pre = Ok k1 ->
  (pre = [] \/ post = [] \/ is_write (last pre (DFix 0)) && is_write (hd (DFix 0) post) = false) ->
  untouched r k k1 /\ (forall d, In d (d_dbs k1) -> In d (d_dbs k) \/ r = CreateDb d) /\ (forall d, In d (d_dbs k) -> In d (d_dbs k1)) /\
  (forall c, target r = Some c -> exists o1, simc k1 c o1 /\ same (eff c r o1) (eff c r o) /\
    (is_some o1 = true -> is_some o = true \/ r = CreateColl c)).
Proof.
  intros SO OK S DB E B. destruct pre as [|a pre].
  { cbn in E. injection E as <-. split; [split; auto|]. split; [auto|]. split; [auto|].
    intros c T. exists o. split; [apply S, T|]. split; [apply same_refl|auto]. }
  destruct post as [|b post].
  { rewrite app_nil_r in OK. destruct (apply_ok r (a :: pre) k o SO OK S DB) as (k' & E' & U & D & S').
    rewrite E in E'. injection E' as <-. split; [exact U|]. split; [intros d; apply D|]. split; [intros d I; apply D; auto|].
    intros c T. exists (eff c r o). split; [apply S', T|]. split; [apply eff_idem, SO|]. unfold eff.
    rewrite (proj1 (target_on _ _) T). destruct r; try discriminate; cbn in T; try (injection T as ->); destruct o; cbn; auto. }
  destruct r; try discriminate; cbn [okops target on] in *; try (exfalso; destruct pre; discriminate).
  - exfalso. destruct OK as (x & -> & Q). destruct (taken x batch); [discriminate|].
    destruct B as [B|[B|B]]; try discriminate.
    assert (W : forall y, In y (map (DWrite c) batch) -> is_write y = true) by (intros y I; apply in_map_iff in I; destruct I as (d & <- & _); reflexivity).
    cbn [hd] in B. rewrite !W in B; [discriminate| |]; rewrite <- Q; [apply in_or_app; right; left; reflexivity|].
    apply in_or_app. left. destruct (exists_last (l := a :: pre)) as (l' & y & L); [discriminate|]. rewrite L, last_last.
    apply in_or_app. right. left. reflexivity.
  - destruct OK as (x & l & -> & Q & H). specialize (S c eq_refl).
    symmetry in Q. apply map_eq_app in Q. destruct Q as (l1 & l2 & -> & Q1 & Q2). rewrite <- Q1 in E.
    destruct (apply_removes c l1 k x S) as (k' & E' & D & Wl & U & S').
    rewrite E in E'. injection E' as <-. split; [split; [|exact Wl]|].
    { intros c' N. apply U, ceqb_neq, N. }
    rewrite D. split; [auto|]. split; [auto|]. intros c' [= <-]. eexists. split; [exact S'|]. split; [|auto].
    unfold eff. cbn [on]. rewrite ceqb_refl. cbn. intros i. unfold drop_where. destruct (mem_N i l1) eqn:M; [|reflexivity].
    apply mem_N_In in M. assert (I : In i (l1 ++ l2)) by (apply in_or_app; auto). apply H in I.
    destruct I as (d & -> & ->). reflexivity.
Qed.
