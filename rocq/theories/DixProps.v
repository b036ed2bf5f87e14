(** Claims C88 and C89: an index on disk, and a collection that has one. *)
From Coq Require Import List ZArith Bool Lia Permutation.
From Verif Require Import Bytes Outcome OidModel.
From Verif Require Import DixModel DixSpec DixProofs.
Import ListNotations.
Local Open Scope Z_scope.

(** C88: after any calls, a search returns the ids of the keys for which the comparison is true, also after restarts;
    nodes of the tree have room for [M] (128 in the code).
    Missing: a second id under a key, removal of another id than the one of a key, the restart of an emptied index, and
    keys that are not integers. *)
Theorem C88_partial : forall M ps, (12 <= M)%nat -> careful_all [] ps ->
  exists outs x, run M index0 ps = Ok (outs, x) /\ answers [] ps outs.
Proof. exact (fun M ps H C => run_ok M H ps index0 [] (Good0 M) C). Qed.
Print Assumptions C88_partial.

Definition oid_of (n : N) : oid := be 12 n.
Definition inserts (a n : nat) : list op := map (fun i => Insert (Z.of_nat i) (oid_of (N.of_nat i))) (seq a n).
Definition answer_of (r : res (list (list oid) * index)) : res (list oid) := do '(outs, _) <- r; Ok (last outs []).

(** A removed entry is there again after a restart, when it was the last one: an empty tree is not written. *)
Theorem C88_emptied_refuted :
  let ps := [Insert 5 (oid_of 1); Remove 5 (oid_of 1)] in
  fold_left after ps [] = [] /\
  answer_of (run 128 index0 (ps ++ [Find IndexModel.CEq 5])) = Ok [] /\
  answer_of (run 128 index0 (ps ++ [Restart; Find IndexModel.CEq 5])) = Ok [oid_of 1].
Proof. split; [vm_compute; reflexivity | ]. split; vm_compute; reflexivity. Qed.
Print Assumptions C88_emptied_refuted.

(** With 128 keys, a second document under the middle key is not found. *)
Theorem C88_second_refuted :
  let ps := inserts 0 128 ++ [Insert 64 (oid_of 1000)] in
  related (fold_left after ps []) 64 (oid_of 1000) = true /\
  answer_of (run 128 index0 (ps ++ [Find IndexModel.CEq 64])) = Ok [oid_of 64].
Proof. split; vm_compute; reflexivity. Qed.
Print Assumptions C88_second_refuted.

Fixpoint careful_b (r : list (Z * oid)) (ps : list op) : bool :=
  match ps with
  | [] => true
  | p :: ps' =>
    match p with
    | Insert k o | Remove k o =>
      fits64 k && oid_wf o && (negb (existsb (fun e => fst e =? k) r) || related r k o)
    | Find _ _ => true
    | Restart => negb (Nat.eqb (length r) 0)
    end && careful_b (after r p) ps'
  end.
Lemma careful_check : forall ps r, careful_b r ps = true -> careful_all r ps.
Proof.
  assert (C : forall k o r, fits64 k && oid_wf o && (negb (existsb (fun e => fst e =? k) r) || related r k o) = true ->
    fits64 k = true /\ oid_wf o = true /\ (In k (map fst r) -> In (k, o) r)).
  { intros k o r H. apply andb_prop in H as (H & H3). apply andb_prop in H as (H1 & H2). split; [exact H1 | ].
    split; [exact H2 | ]. intro I. apply orb_prop in H3 as [H3 | H3]; [ | now apply related_spec].
    exfalso. apply in_map_iff in I. destruct I as (e & E & I). apply negb_true_iff in H3.
    assert (X : existsb (fun e => fst e =? k) r = true) by (apply existsb_exists; exists e; split; [exact I | lia]). congruence. }
  induction ps as [ | p ps IH]; intros r H; [exact I | ]. cbn [careful_b] in H. apply andb_prop in H as (H & H').
  split; [ | now apply IH]. destruct p; cbn [careful]; try now apply C. { exact I. } destruct r; [discriminate | discriminate].
Qed.
(** 300 keys, of which some are removed; restarts; searches of all kinds. *)
Definition many : list op :=
  inserts 0 300 ++ map (fun i => Remove (Z.of_nat i) (oid_of (N.of_nat i))) (seq 20 250) ++
  [Restart; Insert (-7) (oid_of 1000); Insert (2 ^ 64 - 1) (oid_of 1001); Restart;
   Find IndexModel.CLt 3; Find IndexModel.CGte 298; Find IndexModel.CEq 50; Find IndexModel.CNe 3; Find IndexModel.CLte 1].
Example C88_case : careful_all [] many /\
  exists outs x, run 128 index0 many = Ok (outs, x) /\
    map (map unbe) (skipn 554 outs) =
      [[1000%N; 0%N; 1%N; 2%N]; [298%N; 1001%N; 299%N]; [];
       ([1000; 0; 1; 2]%N ++ (1001%N :: rev (map N.of_nat (seq 4 16 ++ seq 270 30)))); [1000%N; 0%N; 1%N]].
Proof.
  split; [apply careful_check; vm_compute; reflexivity | ].
  destruct (run 128 index0 many) as [(outs, x) | ] eqn:E; [ | vm_compute in E; discriminate].
  exists outs, x. split; [reflexivity | ].
  assert (H : map (map unbe) (skipn 554 (match run 128 index0 many with Ok (o, _) => o | Err _ => [] end)) =
      [[1000%N; 0%N; 1%N; 2%N]; [298%N; 1001%N; 299%N]; [];
       ([1000; 0; 1; 2]%N ++ (1001%N :: rev (map N.of_nat (seq 4 16 ++ seq 270 30)))); [1000%N; 0%N; 1%N]])
    by (vm_compute; reflexivity).
  rewrite E in H. exact H.
Qed.

(** C89: a collection with an index on disk.  After any inserts, deletes and queries through the index, a query returns
    the documents for which it is true, up to its limit.
    Missing: an index created when there are documents, deleting a document that the last query did not find, and two
    documents with one key. *)
Theorem C89_partial : forall M acts, (12 <= M)%nat -> sensible_all [] [] acts ->
  exists outs c, history M (create []) acts = Ok (outs, c) /\ right_answers [] acts outs.
Proof. exact (fun M acts H S => history_ok M H acts (create []) [] [] (created_empty M) S). Qed.
Print Assumptions C89_partial.

(** Of the documents that are there when the index is created no query finds any. *)
Theorem C89_created_refuted : forall l p k limit, exists c, query (create l) p k limit = Ok ([], c).
Proof. exact created_blind. Qed.
Print Assumptions C89_created_refuted.

(** A query leaves only its own documents in the index in memory; deleting any other document of the collection erases
    the end iterator of the multimap.  This is so in every state that C89 reaches. *)
Theorem C89_delete_refuted : forall M acts outs c o k, (12 <= M)%nat -> sensible_all [] [] acts ->
  history M (create []) acts = Ok (outs, c) ->
  In (o, k) (fst (final [] [] acts)) -> ~ In (o, k) (snd (final [] [] acts)) ->
  history M c [Delete o k] = Err UB.
Proof. exact (fun M acts outs c o k H => delete_unknown M H acts outs c o k). Qed.
Print Assumptions C89_delete_refuted.

Definition added (a n : nat) : list act := map (fun i => Add (oid_of (N.of_nat i)) (Z.of_nat i)) (seq a n).
Fixpoint sensible_b (l rec : list (oid * Z)) (acts : list act) : bool :=
  match acts with
  | [] => true
  | a :: r =>
    match a with
    | Add o k => (- 2 ^ 63 <=? k) && (k <? 2 ^ 63) && oid_wf o &&
        negb (existsb (fun d => oid_eqb (fst d) o) l) && negb (existsb (fun d => snd d =? k) l)
    | Delete o k => existsb (fun d => oid_eqb (fst d) o && (snd d =? k)) l && existsb (fun d => oid_eqb (fst d) o && (snd d =? k)) rec
    | Query _ _ _ => true
    end && sensible_b (changed l a) (recent l rec a) r
  end.
Lemma sensible_check : forall acts l rec, sensible_b l rec acts = true -> sensible_all l rec acts.
Proof.
  assert (X : forall s o k, existsb (fun d => oid_eqb (fst d) o && (snd d =? k)) s = true -> In (o, k) s).
  { intros s o k H. apply existsb_exists in H. destruct H as ((o', k') & I & H). cbn [fst snd] in H.
    apply andb_prop in H as (H1 & H2). apply Z.eqb_eq in H2. destruct (oid_eqb_spec o' o); [ | discriminate]. now subst. }
  assert (Y : forall (f : oid * Z -> bool) s, negb (existsb f s) = true -> forall d, In d s -> f d = false).
  { intros f s H d I. apply negb_true_iff in H. destruct (f d) eqn:E; [ | reflexivity]. rewrite <- H. symmetry.
    apply existsb_exists. eauto. }
  induction acts as [ | a acts IH]; intros l rec H; [exact I | ]. cbn [sensible_b] in H. apply andb_prop in H as (H & H').
  split; [ | now apply IH]. destruct a as [o k | o k | p v n]; cbn [sensible].
  - apply andb_prop in H as (H & H5). apply andb_prop in H as (H & H4). apply andb_prop in H as (H & H3).
    split; [lia | ]. split; [exact H3 | ]. split; intro J; apply in_map_iff in J; destruct J as (d & E & J).
    + specialize (Y _ _ H4 d J). cbn beta in Y. destruct (oid_eqb_spec (fst d) o); [discriminate | congruence].
    + specialize (Y _ _ H5 d J). cbn beta in Y. lia.
  - apply andb_prop in H as (H1 & H2). split; now apply X.
  - exact I.
Qed.
Definition mixed : list act :=
  added 0 40 ++ [Delete (oid_of 7) 7; Query IndexModel.CLt 10 (-1); Delete (oid_of 3) 3] ++ added 40 100 ++
  [Delete (oid_of 50) 50; Query IndexModel.CGte 0 3; Query IndexModel.CLt 6 (-1); Query IndexModel.CEq 50 (-1)].
Example C89_case : sensible_all [] [] mixed /\
  match history 128 (create []) mixed with
  | Ok (outs, _) => skipn 144 outs = [[0; 1; 2]; [0; 1; 2; 4; 5]; []]%N
  | Err _ => False
  end.
Proof. split; [apply sensible_check; vm_compute; reflexivity | vm_compute; reflexivity]. Qed.
(** Two documents; a query finds the first; the second is deleted. *)
Example C89_delete_case :
  let acts := added 0 2 ++ [Query IndexModel.CEq 0 (-1)] in
  sensible_all [] [] acts /\ In (oid_of 1, 1) (fst (final [] [] acts)) /\ ~ In (oid_of 1, 1) (snd (final [] [] acts)) /\
  history 128 (create []) (acts ++ [Delete (oid_of 1) 1]) = Err UB.
Proof.
  split; [apply sensible_check; vm_compute; reflexivity | ]. split; [right; left; reflexivity | ].
  split; [intros [H | []]; vm_compute in H; discriminate | vm_compute; reflexivity].
Qed.
