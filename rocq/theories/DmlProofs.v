(** Proofs about INSERT and DELETE statements. *)
From Verif Require Import Bytes Outcome ByteOrd.
From Verif Require TapeModel OidModel OidProofs.
From Verif Require Import IndexModel IndexSpec QueryModel QuerySpec QueryProofs GroupModel GroupSpec SqlModel SqlSpec SqlProofs
  SelModel SelSpec SelProofs DmlModel DmlSpec.
From Coq Require Import Sorting.Permutation.
Local Open Scope Z_scope.

Lemma beqb_same k : beqb k k = true.
Proof. apply beqb_eq. reflexivity. Qed.
Lemma beqb_neq k k' : k <> k' -> beqb k k' = false.
Proof. intros N. destruct (beqb k k') eqn:E; [|reflexivity]. apply beqb_eq in E. contradiction. Qed.

(** ** Ids *)
Lemma digit_from_char c : OidModel.is_hex c = true -> digit c = OidModel.from_char c /\ (digit c < 16)%N.
Proof. destruct c as [[] [] [] [] [] [] [] []]; vm_compute; intros H; try discriminate H; split; reflexivity. Qed.
Lemma hex_acc s : forall a, (fold_left (fun a c => a * 16 + digit c) s a = a * 16 ^ N.of_nat (length s) + hexadecimal s)%N.
Proof.
  unfold hexadecimal. induction s as [|c s IH]; intros a; [cbn; lia|]. cbn [fold_left length]. rewrite IH, (IH (0 * 16 + digit c)%N).
  rewrite Nnat.Nat2N.inj_succ, N.pow_succ_r'. lia.
Qed.
Lemma hex_pairs : forall n s, (length s <= n)%nat -> Nat.Even (length s) -> forallb OidModel.is_hex s = true ->
  unbe (OidModel.pairs s) = hexadecimal s.
Proof.
  induction n as [|n IH]; intros s H Ev Hx.
  - destruct s; [reflexivity|cbn in H; lia].
  - destruct s as [|x [|y s]]; [reflexivity|destruct Ev as [k Ev]; cbn in Ev; lia|].
    cbn [forallb] in Hx. apply andb_true_iff in Hx as [Hx1 Hx]. apply andb_true_iff in Hx as [Hx2 Hx].
    destruct (digit_from_char x Hx1) as [E1 L1]. destruct (digit_from_char y Hx2) as [E2 L2].
    assert (Ev' : Nat.Even (length s)) by (destruct Ev as [k Ev]; cbn in Ev; exists (k - 1)%nat; lia).
    cbn [OidModel.pairs]. rewrite unbe_cons, (IH s); [|cbn in H; lia|exact Ev'|exact Hx].
    unfold hexadecimal at 2. cbn [fold_left]. rewrite hex_acc, N_of_byte_of_N, <- E1, <- E2.
    rewrite OidProofs.pairs_length. destruct Ev' as [k Ek]. rewrite Ek.
    replace (2 * k / 2)%nat with k by (rewrite Nat.mul_comm, Nat.div_mul; lia).
    replace (N.of_nat (2 * k)) with (2 * N.of_nat k)%N by lia.
    rewrite N.pow_mul_r. change (16 ^ 2)%N with 256%N.
    rewrite N.mod_small by lia. lia.
Qed.
Lemma number_hexadecimal s : OidModel.is_valid s = true -> number_of s = hexadecimal s.
Proof.
  intros V. unfold number_of, OidModel.parse. rewrite V. unfold OidModel.is_valid in V. apply andb_true_iff in V as [L Hx].
  apply Nat.eqb_eq in L. apply (hex_pairs _ s (le_n _)); [|exact Hx]. rewrite L. exists OidModel.oid_size. reflexivity.
Qed.
Lemma unbe_inj : forall l l', length l = length l' -> unbe l = unbe l' -> l = l'.
Proof.
  induction l as [|b l IH]; intros [|b' l'] L E; try discriminate L; [reflexivity|]. injection L as L.
  rewrite !unbe_cons, L in E. pose proof (unbe_lt l) as H1. pose proof (unbe_lt l') as H2. rewrite L in H1.
  set (p := (256 ^ N.of_nat (length l'))%N) in *.
  assert (B : N_of_byte b = N_of_byte b') by nia.
  assert (U : unbe l = unbe l') by nia.
  f_equal; [|apply IH; assumption].
  rewrite <- (byte_of_N_of_byte b), <- (byte_of_N_of_byte b'), B. reflexivity.
Qed.
Lemma number_inj s s' : OidModel.is_valid s = true -> OidModel.is_valid s' = true -> number_of s = number_of s' -> same_id s s'.
Proof.
  intros V V' E. destruct (OidProofs.parse_text s) as (W & T & _). destruct (OidProofs.parse_text s') as (W' & T' & _).
  unfold OidModel.oid_wf in W, W'. apply Nat.eqb_eq in W, W'.
  assert (P : OidModel.parse s = OidModel.parse s') by (apply unbe_inj; [congruence|exact E]).
  unfold same_id. rewrite <- (T V), <- (T' V'), P. reflexivity.
Qed.
Lemma document_did fs s : lookup beqb (str "_id") fs = Some (DStr s) -> did (document fs) = number_of s.
Proof. intros H. unfold document, id_of. cbn [did]. rewrite H. reflexivity. Qed.

(** ** VALUES *)
Lemma set_field_lookup k v fs k' : lookup beqb k' (set_field k v fs) = if beqb k' k then Some v else lookup beqb k' fs.
Proof.
  induction fs as [|[c x] fs IH]; cbn [set_field lookup]; [reflexivity|].
  destruct (beqb k c) eqn:E.
  - apply beqb_eq in E. subst c. cbn [lookup]. destruct (beqb k' k); reflexivity.
  - cbn [lookup]. rewrite IH. destruct (beqb k' c) eqn:E'; [|reflexivity].
    apply beqb_eq in E'. subst c. destruct (beqb k' k) eqn:Q; [|reflexivity].
    apply beqb_eq in Q. subst k'. rewrite beqb_same in E. discriminate.
Qed.
Lemma set_field_new k v fs : ~ In k (map fst fs) -> set_field k v fs = fs ++ [(k, v)].
Proof.
  induction fs as [|[c x] fs IH]; intros N; [reflexivity|]. cbn [set_field map fst In app] in *.
  rewrite beqb_neq by (intros ->; apply N; left; reflexivity). rewrite IH by tauto. reflexivity.
Qed.
Lemma constant_ok n : SqlSpec.constant n = true -> exists v, node_value n = Ok v /\ constant_of n = Some v.
Proof.
  destruct n as [| [s|z|] | [s|z|] t | | | | | | | | ]; cbn [SqlSpec.constant]; try discriminate; intros C.
  - eexists. split; reflexivity.
  - eexists. split; reflexivity.
  - apply andb_true_iff in C. destruct C as [T S]. cbn [node_value constant_of]. rewrite T.
    apply orb_true_iff in S. destruct S as [S|S]; apply beqb_eq in S; subst s; eexists; split; reflexivity.
Qed.
Lemma fill_ok cols : forall row fs, length row = length cols -> forallb SqlSpec.constant row = true -> NoDup cols ->
  (forall c, In c cols -> ~ In c (map fst fs)) ->
  exists vs, fill cols row fs = Ok (fs ++ combine cols vs) /\ map constant_of row = map Some vs.
Proof.
  induction cols as [|c cols IH]; intros [|n row] fs L C N D; try discriminate L.
  - exists []. cbn. rewrite app_nil_r. split; reflexivity.
  - cbn [forallb] in C. apply andb_true_iff in C. destruct C as [C1 C2]. inversion N as [|? ? N1 N2]; subst.
    destruct (constant_ok n C1) as (v & E & V). cbn [fill]. rewrite E. cbn [rbind].
    rewrite set_field_new by (apply D; left; reflexivity).
    destruct (IH row (fs ++ [(c, v)]) (f_equal pred L) C2 N2) as (vs & F & M).
    { intros k K. rewrite map_app, in_app_iff. cbn. intros [H|[<-|[]]]; [exact (D k (or_intror K) H)|contradiction]. }
    exists (v :: vs). rewrite F, <- app_assoc. cbn [combine map app]. rewrite V, M. split; reflexivity.
Qed.
Lemma combine_document cols : forall row vs, NoDup cols -> length row = length cols -> map constant_of row = map Some vs ->
  row_document cols row (document (combine cols vs)).
Proof.
  intros row vs N L M. unfold row_document, document. cbn [fields].
  assert (LV : length vs = length cols) by (rewrite <- L, <- (map_length Some vs), <- M, map_length; reflexivity).
  split.
  - clear - LV. revert vs LV. induction cols as [|c cols IH]; intros [|v vs] LV; try discriminate LV; [reflexivity|].
    cbn. rewrite IH; [reflexivity|]. cbn in LV. congruence.
  - unfold field. cbn [fields].
    assert (G : forall cs row vs pre, NoDup cs -> length row = length cs -> map constant_of row = map Some vs ->
      (forall c, In c cs -> lookup beqb c pre = None) ->
      Forall2 (fun c n => lookup beqb c (pre ++ combine cs vs) <> None /\ lookup beqb c (pre ++ combine cs vs) = constant_of n) cs row).
    { clear. assert (LA : forall (p q : list (list byte * dval)) k, lookup beqb k (p ++ q) =
        match lookup beqb k p with Some x => Some x | None => lookup beqb k q end).
      { intros p q k. induction p as [|[a x] p IH]; [reflexivity|]. cbn. destruct (beqb k a); [reflexivity|exact IH]. }
      induction cs as [|c cs IH]; intros [|n row] vs pre N L M P; try discriminate L; [constructor|].
      destruct vs as [|v vs]; [discriminate M|]. cbn [map] in M. injection M as M1 M2. inversion N as [|? ? N1 N2]; subst.
      constructor.
      - rewrite LA, (P c (or_introl eq_refl)). cbn [combine lookup]. rewrite beqb_same, M1. split; congruence.
      - cbn [combine]. change (pre ++ (c, v) :: combine cs vs) with (pre ++ [(c, v)] ++ combine cs vs). rewrite app_assoc.
        apply IH; [exact N2|cbn in L; congruence|exact M2|]. intros k K. rewrite LA, (P k (or_intror K)). cbn [lookup].
        rewrite beqb_neq; [reflexivity|]. intros ->. contradiction. }
    exact (G cols row vs [] N L M (fun _ _ => eq_refl)).
Qed.

Lemma row_document_id cols row d s : row_document cols row d -> length row = length cols -> row_id cols row = Some s ->
  field d (str "_id") = Some (DStr s).
Proof.
  intros [_ F] _. unfold row_id.
  induction F as [|c n cols row [F1 F2] F IH]; cbn [combine lookup]; [discriminate|].
  destruct (beqb (str "_id") c) eqn:E; [|exact IH].
  apply beqb_eq in E. subst c. rewrite F2. destruct n as [| [x|x|] | | | | | | | | | ]; try discriminate. intros [= ->]. reflexivity.
Qed.

Lemma simple_same cols : simple (map (fun c => (c, c)) cols) = true.
Proof. unfold simple. induction cols as [|c cols IH]; [reflexivity|]. cbn. rewrite beqb_same. exact IH. Qed.
Lemma insert_simple trans stored batch : simple trans = true -> insert_documents trans stored batch = insert stored batch.
Proof. intros S. unfold insert_documents, insert. rewrite S. reflexivity. Qed.

Theorem insert_values_ok cols rows texts stored : NoDup cols -> well_stored stored -> Forall filed stored ->
  (forall r, In r rows -> length r = length cols /\ forallb SqlSpec.constant r = true) ->
  map (row_id cols) rows = map Some texts -> forallb OidModel.is_valid texts = true ->
  ForallOrdPairs (fun s s' => ~ same_id s s') texts ->
  (forall s d s', In s texts -> In d stored -> has_text s' d -> ~ same_id s s') ->
  exists ds stored', insert_values cols rows stored = Ok (stored', ids ds) /\ Forall2 (row_document cols) rows ds /\
    (forall d, In d stored' <-> In d stored \/ In d ds) /\ well_stored stored' /\ Forall filed stored'.
Proof.
  intros N W FS R T V D O.
  assert (F : exists ds, fill_rows cols rows = Ok ds /\ Forall2 (row_document cols) rows ds /\
                map did ds = map number_of texts /\ Forall2 has_text texts ds).
  { clear D O. revert texts T V. induction rows as [|r rows IH]; intros [|s texts] T V; try discriminate T.
    - exists []. repeat split; constructor.
    - cbn [map] in T. injection T as T1 T2. cbn [forallb] in V. apply andb_true_iff in V. destruct V as [V1 V2].
      destruct (R r (or_introl eq_refl)) as [L C].
      destruct (fill_ok cols r [] L C N (fun _ _ H => H)) as (vs & E & M).
      pose proof (combine_document cols r vs N L M) as RD.
      destruct (IH (fun x H => R x (or_intror H)) texts T2 V2) as (ds & E2 & F2 & I2 & H2).
      pose proof (row_document_id cols r _ s RD L T1) as FI.
      exists (document (combine cols vs) :: ds). cbn [fill_rows]. rewrite E. cbn [rbind app]. rewrite E2.
      split; [reflexivity|]. split; [constructor; assumption|].
      split; [cbn [map]; rewrite I2; f_equal; apply document_did; exact FI|constructor; [split; assumption|exact H2]]. }
  destruct F as (ds & E & FD & I & HT).
  assert (VA : forall s, In s texts -> OidModel.is_valid s = true) by (apply forallb_forall; exact V).
  assert (ND : NoDup (ids ds)).
  { unfold ids. rewrite I. clear - D VA. induction D as [|s texts Ds D IH]; [constructor|]. cbn [map].
    constructor; [|apply IH; intros x H; apply VA; right; exact H].
    intros H. apply in_map_iff in H. destruct H as (s' & E & S'). rewrite Forall_forall in Ds. apply (Ds s' S').
    apply number_inj; [apply VA; left; reflexivity|apply VA; right; exact S'|congruence]. }
  assert (FR : forall d, In d ds -> ~ In (did d) (ids stored)).
  { intros d H1 H2. assert (Q : In (did d) (map number_of texts)) by (rewrite <- I; apply in_map, H1).
    apply in_map_iff in Q. destruct Q as (s & Q & S). apply in_map_iff in H2. destruct H2 as (x & X & XS).
    rewrite Forall_forall in FS. destruct (FS x XS) as (s' & HT' & DX). apply (O s x s' S XS HT').
    apply number_inj; [apply VA, S|apply HT'|]. rewrite (number_hexadecimal s' (proj2 HT')). congruence. }
  destruct (insert_accepted stored ds W ND FR) as [RE IN].
  exists ds, (fst (insert stored ds)). unfold insert_values. rewrite E. cbn [rbind].
  rewrite (insert_simple _ _ _ (simple_same cols)). split; [|split; [exact FD|split; [exact IN|split]]].
  - rewrite <- RE. destruct (insert stored ds). reflexivity.
  - apply insert_well, W.
  - apply Forall_forall. intros d H. apply IN in H. destruct H as [H|H]; [rewrite Forall_forall in FS; exact (FS d H)|].
    clear - H HT I VA. revert texts HT I VA. induction ds as [|x ds IH]; intros texts HT I VA; [destruct H|].
    inversion HT as [|s ? ts ? H1 H2]; subst. cbn [map] in I. injection I as I1 I2. destruct H as [->|H].
    + exists s. split; [exact H1|]. rewrite I1. apply number_hexadecimal. apply H1.
    + apply (IH H ts H2 I2). intros z Z. apply VA. right. exact Z.
Qed.

(** ** SELECT *)
Lemma lookup_In {B} (k : list byte) (l : list (list byte * B)) v : lookup beqb k l = Some v -> In (k, v) l.
Proof.
  induction l as [|[a x] l IH]; cbn; [discriminate|]. destruct (beqb k a) eqn:E.
  - intros [= ->]. apply beqb_eq in E. subst. left. reflexivity.
  - intros H. right. apply IH, H.
Qed.
Lemma lookup_notin {B} (k : list byte) (l : list (list byte * B)) : ~ In k (map fst l) -> lookup beqb k l = None.
Proof.
  induction l as [|[a x] l IH]; cbn; [reflexivity|]. intros N. rewrite beqb_neq by (intros ->; tauto). apply IH. tauto.
Qed.
Lemma lookup_none {B} (k : list byte) (l : list (list byte * B)) : lookup beqb k l = None -> ~ In k (map fst l).
Proof.
  induction l as [|[a x] l IH]; cbn; [tauto|]. destruct (beqb k a) eqn:E; [discriminate|]. intros H [->|I].
  - rewrite beqb_same in E. discriminate.
  - exact (IH H I).
Qed.
Lemma fst_combine {A B} (l : list A) : forall l' : list B, length l = length l' -> map fst (combine l l') = l.
Proof. induction l as [|a l IH]; intros [|b l'] L; try discriminate L; cbn; [reflexivity|]. rewrite IH; [reflexivity|]. cbn in L. congruence. Qed.

Lemma copied d pairs : forall fs c, NoDup (map fst pairs) -> (forall p, In p pairs -> QueryModel.get_value d (snd p) <> None) ->
  lookup beqb c (fold_left (fun fs p => copy_field fs (fst p) d (snd p)) pairs fs) =
  match lookup beqb c pairs with Some s => QueryModel.get_value d s | None => lookup beqb c fs end.
Proof.
  induction pairs as [|[k s] pairs IH]; intros fs c N H; [reflexivity|]. cbn [fold_left fst snd lookup map] in *.
  inversion N as [|? ? N1 N2]; subst. rewrite IH; [|exact N2|intros p P; apply H; right; exact P].
  destruct (QueryModel.get_value d s) as [v|] eqn:E; [|exfalso; exact (H _ (or_introl eq_refl) E)].
  unfold copy_field. rewrite E, set_field_lookup.
  destruct (beqb c k) eqn:Q; [|reflexivity].
  apply beqb_eq in Q. subst c. rewrite (lookup_notin k pairs N1). symmetry. exact E.
Qed.

Lemma same_value_str s y : same_value (DStr s) y = true -> y = DStr s.
Proof.
  unfold same_value. destruct y; cbn; try discriminate. destruct (bcmp s s0) eqn:E; try discriminate. intros _.
  apply bcmp_eq in E. congruence.
Qed.
Lemma same_value_nest x y : same_value x y = true -> y <> DNest.
Proof. intros H ->. destruct x; discriminate H. Qed.

Lemma filed_different srcs ds : In (str "_id") srcs -> NoDup (ids ds) -> Forall filed ds -> all_different srcs ds.
Proof.
  intros I N F. unfold all_different. induction ds as [|d ds IH]; [constructor|].
  cbn [ids map] in N. inversion N as [|? ? N1 N2]; subst. inversion F as [|? ? F1 F2]; subst.
  constructor; [|exact (IH N2 F2)]. apply Forall_forall. intros e E. apply not_true_is_false. intros S.
  unfold same_keys in S. rewrite forallb_forall in S. specialize (S _ I). rewrite Forall_forall in F2.
  destruct F1 as (s & [T _] & D). destruct (F2 e E) as (s' & [T' _] & D'). rewrite T, T' in S.
  apply same_value_str in S. injection S as ->. apply N1. rewrite D, <- D'. apply in_map, E.
Qed.

Lemma insert_documents_map trans stored batch : well_stored stored -> NoDup (ids batch) ->
  (forall d, In d batch -> ~ In (did d) (ids stored)) ->
  let out := if simple trans then batch else map (translate trans) batch in
  snd (insert_documents trans stored batch) = ids batch /\
  (forall d, In d (fst (insert_documents trans stored batch)) <-> In d stored \/ In d out) /\
  well_stored (fst (insert_documents trans stored batch)).
Proof.
  intros W N F out. destruct (simple trans) eqn:S.
  - rewrite (insert_simple _ _ _ S). destruct (insert_accepted stored batch W N F) as [A B].
    split; [exact A|]. split; [exact B|]. apply insert_well, W.
  - assert (I : ids out = ids batch) by (unfold out, ids; rewrite map_map; reflexivity).
    assert (F' : forall d, In d out -> ~ In (did d) (ids stored)).
    { intros d D. unfold out in D. apply in_map_iff in D. destruct D as (x & <- & X). exact (F x X). }
    assert (N' : NoDup (ids out)) by (rewrite I; exact N).
    assert (E : insert_documents trans stored batch = insert stored out).
    { unfold insert_documents, insert, primary_key_scan.
      replace (existsb (fun d => has_id stored (did d)) batch) with (existsb (fun d => has_id stored (did d)) out)
        by (unfold out; clear; induction batch as [|x b IH]; cbn; [reflexivity|rewrite IH; reflexivity]).
      destruct (existsb (fun d => has_id stored (did d)) out); [reflexivity|]. rewrite S. f_equal; [|symmetry; exact I].
      unfold out. clear. revert stored. induction batch as [|x b IH]; intros stored; cbn; [reflexivity|]. apply IH. }
    rewrite E. destruct (insert_accepted stored out W N' F') as [A B]. rewrite <- I.
    split; [exact A|]. split; [exact B|]. apply insert_well, W.
Qed.

Lemma renamed_ok cols srcs d row : NoDup cols -> NoDup srcs -> length cols = length srcs ->
  lookup beqb (str "_id") (combine cols srcs) = Some (str "_id") -> filed d -> row_of srcs d row ->
  let new := document (fields row) in
  did new = did d /\
  renamed (combine cols srcs) d (if simple (combine cols srcs) then new else translate (combine cols srcs) new).
Proof.
  intros N M L I (s & [T V] & D) [R S] new.
  assert (IS : In (str "_id") srcs) by (apply lookup_In, in_combine_r in I; exact I).
  assert (DN : did new = did d).
  { destruct (S _ IS) as (x & y & X & Y & Q). rewrite T in X. injection X as <-. apply same_value_str in Q. subst y.
    rewrite D, <- (number_hexadecimal s V). apply document_did. exact Y. }
  split; [exact DN|]. pose proof (fst_combine cols srcs L) as FC.
  assert (G : forall c k, lookup beqb c (combine cols srcs) = Some k -> In k srcs)
    by (intros c k E; apply lookup_In, in_combine_r in E; exact E).
  destruct (simple (combine cols srcs)) eqn:SI.
  - split; [exact DN|]. intros c. destruct (lookup beqb c (combine cols srcs)) as [k|] eqn:E.
    + unfold simple in SI. rewrite forallb_forall in SI. pose proof (SI _ (lookup_In _ _ _ E)) as Q. cbn in Q.
      apply beqb_eq in Q. subst k. exact (S c (G _ _ E)).
    + apply lookup_none in E. rewrite FC in E. apply lookup_notin. change (fields new) with (fields row). rewrite R.
      assert (cols = srcs); [|congruence]. clear - L SI. revert srcs L SI.
      induction cols as [|a cols IH]; intros [|b srcs] L SI; try discriminate L; [reflexivity|].
      cbn in SI. apply andb_true_iff in SI. destruct SI as [Q SI]. apply beqb_eq in Q. subst b. f_equal.
      apply IH; [cbn in L; congruence|exact SI].
  - split; [exact DN|]. intros c. unfold translate, field at 2 3. cbn [fields].
    assert (P : forall p, In p (combine cols srcs) -> QueryModel.get_value new (snd p) <> None).
    { intros [c' k] H. cbn [snd]. apply in_combine_r in H. destruct (S k H) as (x & y & X & Y & Q).
      unfold QueryModel.get_value, new, document, field in *. cbn [fields]. rewrite Y.
      pose proof (same_value_nest _ _ Q). destruct y; congruence. }
    rewrite copied; [|rewrite FC; exact N|exact P].
    destruct (lookup beqb c (combine cols srcs)) as [k|] eqn:E.
    + destruct (S k (G _ _ E)) as (x & y & X & Y & Q). exists x, y. split; [exact X|]. split; [|exact Q].
      unfold QueryModel.get_value, new, document, field in *. cbn [fields]. rewrite Y.
      pose proof (same_value_nest _ _ Q). destruct y; congruence.
    + apply lookup_notin. cbn [map fst In]. intros [H|[]]. subst c. congruence.
Qed.

Lemma scalar_columns cs : scalar_names (map (fun c => GField c c) cs) = cs.
Proof. unfold scalar_names. induction cs as [|c cs IH]; [reflexivity|]. cbn in *. rewrite IH. reflexivity. Qed.

Theorem insert_select_ok digits cols srcs q db t f stored : q_from q = [t] -> q_targets q = columns srcs ->
  length cols = length srcs -> NoDup cols -> NoDup srcs ->
  lookup beqb (str "_id") (combine cols srcs) = Some (str "_id") ->
  accepts (q_where q) f (collection db t) -> let found := filter f (collection db t) in
  well_stored (collection db t) -> Forall filed (collection db t) ->
  GroupSpec.plain srcs found -> (forall d c, In d found -> In c srcs -> field d c <> None) ->
  well_stored stored -> (forall d, In d found -> ~ In (did d) (ids stored)) ->
  exists ds stored', insert_select digits cols q db stored = Ok (stored', ids found) /\
    Forall2 (renamed (combine cols srcs)) found ds /\
    (forall d, In d stored' <-> In d stored \/ In d ds) /\ well_stored stored'.
Proof.
  intros F T L N M I A found W FI P HF WS FR.
  assert (IS : In (str "_id") srcs) by (apply lookup_In, in_combine_r in I; exact I).
  assert (NE : srcs <> []) by (intros ->; destruct IS).
  assert (FF : Forall filed found).
  { apply Forall_forall. intros d D. apply filter_In in D. rewrite Forall_forall in FI. apply FI, D. }
  assert (ND : NoDup (ids found)).
  { unfold found, ids. pose proof (well_stored_NoDup _ W) as Q. unfold ids in Q. clear - Q.
    induction (collection db t) as [|x l IH]; cbn in *; [constructor|]. inversion Q as [|? ? Q1 Q2]; subst.
    destruct (f x); cbn; [|apply IH, Q2]. constructor; [|apply IH, Q2]. intros H. apply Q1.
    apply in_map_iff in H. destruct H as (y & E & Y). apply filter_In in Y. rewrite <- E. apply in_map, Y. }
  destruct (columns_ok digits q db t f srcs F NE T A P HF (filed_different srcs found IS ND FF)) as (rows & SR & RO).
  assert (TT : transform_targets digits (q_targets q) no_params = Ok (map (fun c => GField c c) srcs, no_params)).
  { rewrite T, <- (app_nil_r (columns srcs)), targets_columns. cbn. rewrite app_nil_r. reflexivity. }
  unfold insert_select. unfold select_rows in SR. destruct (transform_select digits q) as [p|e] eqn:TS; [|discriminate].
  cbn [rbind] in SR |- *.
  assert (PG : p_group p = map (fun c => GField c c) srcs).
  { unfold transform_select in TS. rewrite F, TT in TS. cbn [rbind] in TS.
    destruct (q_where q) as [n|]; [destruct (transform n no_params) as [[e s2]|x]; cbn [rbind] in TS|cbn [rbind] in TS];
      inversion TS; reflexivity. }
  assert (TR : translation cols (p_group p) = Ok (combine cols srcs)).
  { rewrite PG. unfold translation. rewrite scalar_columns, <- L, Nat.eqb_refl. destruct srcs; [congruence|reflexivity]. }
  rewrite TR. cbn [rbind]. rewrite SR. cbn [rbind].
  set (trans := combine cols srcs) in *. set (batch := map (fun d => document (fields d)) rows).
  assert (Q : ids batch = ids found /\ Forall2 (renamed trans) found (if simple trans then batch else map (translate trans) batch)).
  { unfold batch. clear - RO FF N M L I. revert FF. induction RO as [|d row ds rows R RO IH]; intros FF.
    - split; [reflexivity|]. destruct (simple trans); constructor.
    - inversion FF as [|? ? F1 F2]; subst. destruct (IH F2) as [E1 E2].
      destruct (renamed_ok cols srcs d row N M L I F1 R) as [D RN]. cbn zeta in D, RN. fold trans in RN.
      split; [cbn [map ids]; cbn [ids map] in E1; unfold ids in *; rewrite E1, D; reflexivity|].
      destruct (simple trans); constructor; assumption. }
  destruct Q as [Q1 Q2].
  destruct (insert_documents_map trans stored batch WS) as (R1 & R2 & R3).
  - rewrite Q1. exact ND.
  - intros d D H. assert (X : In (did d) (ids found)) by (rewrite <- Q1; apply in_map, D).
    apply in_map_iff in X. destruct X as (x & E & X). apply (FR x X). rewrite E. exact H.
  - eexists _, (fst (insert_documents trans stored batch)). split; [|split; [exact Q2|split; [exact R2|exact R3]]].
    rewrite <- Q1, <- R1. destruct (insert_documents trans stored batch). reflexivity.
Qed.

(** The same with names for the columns: through a document that has the values under these names. *)
Lemma lookup_second {A B} (f : A -> B) c cols : forall cas, lookup beqb c (combine cols (map f cas)) = option_map f (lookup beqb c (combine cols cas)).
Proof.
  induction cols as [|a cols IH]; intros [|x cas]; try reflexivity. cbn [map combine lookup]. destruct (beqb c a); [reflexivity|apply IH].
Qed.
Definition under_names (cas : list (list byte * list byte)) (d : doc) : doc :=
  {| did := did d; fields := map (fun ca => (snd ca, match field d (fst ca) with Some v => v | None => DNull end)) cas |}.
Lemma under_names_field cas d c a : NoDup (map snd cas) -> In (c, a) cas -> field d c <> None -> field (under_names cas d) a = field d c.
Proof.
  intros N. unfold field at 2, under_names. cbn [fields]. induction cas as [|[c' a'] cas IH]; intros I H; [destruct I|].
  cbn [map snd] in N. inversion N as [|? ? N1 N2]; subst. cbn [map lookup fst snd]. destruct I as [E|I].
  - injection E as -> ->. rewrite beqb_same. destruct (field d c); [reflexivity|contradiction].
  - destruct (beqb a a') eqn:E; [|exact (IH N2 I H)]. apply beqb_eq in E. subst a'. exfalso. apply N1. change a with (snd (c, a)). apply in_map, I.
Qed.
Lemma renamed_alias cols cas d row : NoDup cols -> NoDup (map snd cas) -> length cols = length cas ->
  lookup beqb (str "_id") (combine cols cas) = Some (str "_id", str "_id") -> filed d -> aliased_row cas d row ->
  let new := document (fields row) in let trans := combine cols (map snd cas) in
  did new = did d /\ renamed (combine cols (map fst cas)) d (if simple trans then new else translate trans new).
Proof.
  intros N M L I (s & [T V] & D) [R S] new trans. set (e := under_names cas d).
  assert (U : forall c a, In (c, a) cas -> field e a = field d c).
  { intros c a H. apply under_names_field; [exact M|exact H|]. destruct (S c a H) as (x & y & X & _). congruence. }
  assert (IA : In (str "_id", str "_id") cas) by (apply lookup_In, in_combine_r in I; exact I).
  assert (FE : filed e). { exists s. split; [|exact D]. split; [|exact V]. rewrite (U _ _ IA). exact T. }
  assert (RO : row_of (map snd cas) e row).
  { split; [exact R|]. intros a H. apply in_map_iff in H. destruct H as ([c a'] & E & H). cbn in E. subst a'.
    destruct (S c a H) as (x & y & X & Y & Q). exists x, y. rewrite (U c a H). auto. }
  destruct (renamed_ok cols (map snd cas) e row N M) as [D1 [D2 RN]]; [rewrite map_length; exact L| |exact FE|exact RO|].
  { rewrite lookup_second, I. reflexivity. }
  cbn zeta in D1, D2, RN. fold new in D1, D2, RN. fold trans in D2, RN. split; [exact D1|]. split; [exact D2|].
  intros c. specialize (RN c). unfold trans in RN at 1. rewrite lookup_second in RN. rewrite lookup_second.
  destruct (lookup beqb c (combine cols cas)) as [[c' a]|] eqn:E; cbn [option_map fst snd] in *; [|exact RN].
  apply lookup_In, in_combine_r in E. rewrite (U c' a E) in RN. exact RN.
Qed.

Lemma scalar_aliases cas : scalar_names (map (fun ca => GField (snd ca) (fst ca)) cas) = map snd cas.
Proof. unfold scalar_names. induction cas as [|c cas IH]; [reflexivity|]. cbn in *. rewrite IH. reflexivity. Qed.

Theorem insert_aliases_ok digits cols cas q db t f stored : q_from q = [t] -> q_targets q = aliased cas ->
  length cols = length cas -> NoDup cols -> NoDup (map snd cas) ->
  lookup beqb (str "_id") (combine cols cas) = Some (str "_id", str "_id") ->
  accepts (q_where q) f (collection db t) -> let found := filter f (collection db t) in
  well_stored (collection db t) -> Forall filed (collection db t) ->
  GroupSpec.plain (map fst cas) found -> (forall d c, In d found -> In c (map fst cas) -> field d c <> None) ->
  well_stored stored -> (forall d, In d found -> ~ In (did d) (ids stored)) ->
  exists ds stored', insert_select digits cols q db stored = Ok (stored', ids found) /\
    Forall2 (renamed (combine cols (map fst cas))) found ds /\
    (forall d, In d stored' <-> In d stored \/ In d ds) /\ well_stored stored'.
Proof.
  intros F T L N M I A found W FI P HF WS FR.
  assert (IA : In (str "_id", str "_id") cas) by (apply lookup_In, in_combine_r in I; exact I).
  assert (IS : In (str "_id") (map fst cas)) by (change (str "_id") with (fst (str "_id", str "_id")); apply in_map, IA).
  assert (NE : cas <> []) by (intros ->; destruct IA).
  assert (FF : Forall filed found).
  { apply Forall_forall. intros d D. apply filter_In in D. rewrite Forall_forall in FI. apply FI, D. }
  assert (ND : NoDup (ids found)).
  { unfold found, ids. pose proof (well_stored_NoDup _ W) as Q. unfold ids in Q. clear - Q.
    induction (collection db t) as [|x l IH]; cbn in *; [constructor|]. inversion Q as [|? ? Q1 Q2]; subst.
    destruct (f x); cbn; [|apply IH, Q2]. constructor; [|apply IH, Q2]. intros H. apply Q1.
    apply in_map_iff in H. destruct H as (y & E & Y). apply filter_In in Y. rewrite <- E. apply in_map, Y. }
  destruct (aliased_ok digits q db t f cas F NE M T A P HF (filed_different (map fst cas) found IS ND FF)) as (rows & SR & RO).
  assert (TT : transform_targets digits (q_targets q) no_params = Ok (map (fun ca => GField (snd ca) (fst ca)) cas, no_params))
    by (rewrite T; apply targets_aliased).
  unfold insert_select. unfold select_rows in SR. destruct (transform_select digits q) as [p|e] eqn:TS; [|discriminate].
  cbn [rbind] in SR |- *.
  assert (PG : p_group p = map (fun ca => GField (snd ca) (fst ca)) cas).
  { unfold transform_select in TS. rewrite F, TT in TS. cbn [rbind] in TS.
    destruct (q_where q) as [n|]; [destruct (transform n no_params) as [[e s2]|x]; cbn [rbind] in TS|cbn [rbind] in TS];
      inversion TS; reflexivity. }
  assert (TR : translation cols (p_group p) = Ok (combine cols (map snd cas))).
  { rewrite PG. unfold translation. rewrite scalar_aliases, map_length, <- L, Nat.eqb_refl. destruct cas; [congruence|reflexivity]. }
  rewrite TR. cbn [rbind]. rewrite SR. cbn [rbind].
  set (trans := combine cols (map snd cas)) in *. set (batch := map (fun d => document (fields d)) rows).
  assert (Q : ids batch = ids found /\ Forall2 (renamed (combine cols (map fst cas))) found (if simple trans then batch else map (translate trans) batch)).
  { unfold batch. clear - RO FF N M L I. revert FF. induction RO as [|d row ds rows R RO IH]; intros FF.
    - split; [reflexivity|]. destruct (simple trans); constructor.
    - inversion FF as [|? ? F1 F2]; subst. destruct (IH F2) as [E1 E2].
      destruct (renamed_alias cols cas d row N M L I F1 R) as [D RN]. cbn zeta in D, RN. fold trans in RN.
      split; [cbn [map ids]; cbn [ids map] in E1; unfold ids in *; rewrite E1, D; reflexivity|].
      destruct (simple trans); constructor; assumption. }
  destruct Q as [Q1 Q2].
  destruct (insert_documents_map trans stored batch WS) as (R1 & R2 & R3).
  - rewrite Q1. exact ND.
  - intros d D H. assert (X : In (did d) (ids found)) by (rewrite <- Q1; apply in_map, D).
    apply in_map_iff in X. destruct X as (x & E & X). apply (FR x X). rewrite E. exact H.
  - eexists _, (fst (insert_documents trans stored batch)). split; [|split; [exact Q2|split; [exact R2|exact R3]]].
    rewrite <- Q1, <- R1. destruct (insert_documents trans stored batch). reflexivity.
Qed.

(** ** DELETE *)
Theorem delete_ok w f stored : well_stored stored -> accepts w f stored ->
  exists reported, delete_statement [] w stored = Ok (filter (fun d => negb (f d)) stored, reported) /\
    Permutation reported (ids (filter f stored)).
Proof.
  intros W A. unfold delete_statement.
  assert (G : forall p, (forall d, In d stored -> p d = Ok (f d)) ->
    exists reported, (do found <- full_scan p (-1) stored; Ok (delete stored (match found with Some l => l | None => [] end))) =
      Ok (filter (fun d => negb (f d)) stored, reported) /\ Permutation reported (ids (filter f stored))).
  { intros p H. destruct (delete_where p f stored W H) as (found & E & D & R). rewrite E. cbn [rbind].
    exists (snd (delete stored found)). split; [|exact R]. rewrite <- D. destruct (delete stored found). reflexivity. }
  destruct w as [n|].
  - destruct A as (P & C & H). destruct (transform_ok n no_params 0 P added_none) as (e & st & [R AD K N S RG]); [lia|].
    rewrite R. cbn [rbind]. apply G. intros d D. destruct (H d D) as [M FH].
    destruct (eval_sat e (vals st) d None (RG _ (keeps_refl _) d M)) as (b & E & Q). rewrite E. f_equal.
    pose proof (S _ (keeps_refl _) d) as SD. destruct b, (f d); try reflexivity; exfalso.
    + assert (false = true) by (apply FH, SD, Q; reflexivity). discriminate.
    + assert (false = true) by (apply Q, SD, FH; reflexivity). discriminate.
  - apply G. intros d D. cbn [eval]. rewrite (A d D). reflexivity.
Qed.

Section Using.
  Variables t u : list byte.
  Hypothesis TU : beqb t u = false.

  Lemma column_left n : column_of t n = true -> column n = true /\ exists p k, n = Col p k /\ forall l r, pair_value t u n l r = field l k.
  Proof. destruct n; try discriminate. cbn. intros E. split; [reflexivity|]. eexists _, _. split; [reflexivity|]. intros l r. cbn. rewrite E. reflexivity. Qed.
  Lemma column_right n : column_of u n = true -> exists p k, n = Col p k /\ forall l r, pair_value t u n l r = field r k.
  Proof.
    destruct n as [p k| | | | | | | | | |]; try discriminate. cbn. intros E. eexists _, _. split; [reflexivity|]. intros l r. cbn.
    rewrite E. destruct p as [|x [|? ?]]; try discriminate E. cbn in E |- *. destruct (beqb x t) eqn:Q; [|reflexivity].
    apply beqb_eq in E, Q. subst. rewrite beqb_same in TU. discriminate.
  Qed.
  Lemma pair_constant n : SqlSpec.constant n = true ->
    exists v, node_value n = Ok v /\ (forall l r, pair_value t u n l r = Some v) /\ constants n = 1%N /\ column n = false.
  Proof.
    intros C. destruct (constant_ok n C) as (v & E & V). exists v. split; [exact E|].
    destruct n as [| [s|z|] | [s|z|] ty | | | | | | | | ]; try discriminate C; repeat split; intros; exact V.
  Qed.

  Record pair_done (n : node) (st : pstore) (k : N) (e : expr) (st' : pstore) : Prop := {
    p_run : transform n st = Ok (e, st');
    p_added : added st' (k + constants n);
    p_keeps : keeps (vals st) (vals st');
    p_not : negation n = false -> not_part e = [e];
    p_sat : forall ps, keeps (vals st') ps -> forall l r, sat e ps l (Some r) <-> pair_holds t u n l r;
    p_regular : forall ps, keeps (vals st') ps -> forall l r, pair_matched t u n l r = true -> regular e ps l (Some r) = true
  }.

  Lemma pair_transform n : forall st k, pair_plain t u n = true -> added st k -> (k + constants n <= 65536)%N ->
    exists e st', pair_done n st k e st'.
  Proof.
    induction n as [p k0|l|l ty|l IHl r IHr|l IHl r IHr|r IH|o l _ r _|o r _|l _ r _|a IH| ]; intros st k P A B;
      try discriminate P.
    - cbn in P, B. apply andb_true_iff in P. destruct P as [P1 P2].
      destruct (IHl st k P1 A) as (el & s1 & [R1 A1 K1 N1 S1 G1]); [lia|].
      destruct (IHr s1 _ P2 A1) as (er & s2 & [R2 A2 K2 N2 S2 G2]); [lia|].
      exists (And (and_part el ++ and_part er)), s2. constructor.
      + cbn [transform]. rewrite R1. cbn [rbind]. rewrite R2. reflexivity.
      + cbn [constants]. rewrite N.add_assoc. exact A2.
      + eapply keeps_trans; eassumption.
      + reflexivity.
      + intros ps K d e. rewrite sat_and, !sat_and_part, S2 by exact K. rewrite S1 by (eapply keeps_trans; eassumption).
        reflexivity.
      + intros ps K d e M. cbn in M. apply andb_true_iff in M. destruct M as [M1 M2].
        change (regular (And (and_part el ++ and_part er)) ps d (Some e))
          with (forallb (fun x => regular x ps d (Some e)) (and_part el ++ and_part er)).
        rewrite forallb_app. apply andb_true_iff. split.
        * change (regular (And (and_part el)) ps d (Some e) = true). rewrite regular_and_part. apply G1; [|exact M1].
          eapply keeps_trans; eassumption.
        * change (regular (And (and_part er)) ps d (Some e) = true). rewrite regular_and_part. apply G2; assumption.
    - cbn in P, B. apply andb_true_iff in P. destruct P as [P1 P2].
      destruct (IHl st k P1 A) as (el & s1 & [R1 A1 K1 N1 S1 G1]); [lia|].
      destruct (IHr s1 _ P2 A1) as (er & s2 & [R2 A2 K2 N2 S2 G2]); [lia|].
      exists (Or (or_part el ++ or_part er)), s2. constructor.
      + cbn [transform]. rewrite R1. cbn [rbind]. rewrite R2. reflexivity.
      + cbn [constants]. rewrite N.add_assoc. exact A2.
      + eapply keeps_trans; eassumption.
      + reflexivity.
      + intros ps K d e. rewrite sat_or, !sat_or_part, S2 by exact K. rewrite S1 by (eapply keeps_trans; eassumption).
        reflexivity.
      + intros ps K d e M. cbn in M. apply andb_true_iff in M. destruct M as [M1 M2].
        change (regular (Or (or_part el ++ or_part er)) ps d (Some e))
          with (forallb (fun x => regular x ps d (Some e)) (or_part el ++ or_part er)).
        rewrite forallb_app. apply andb_true_iff. split.
        * change (regular (Or (or_part el)) ps d (Some e) = true). rewrite regular_or_part. apply G1; [|exact M1].
          eapply keeps_trans; eassumption.
        * change (regular (Or (or_part er)) ps d (Some e) = true). rewrite regular_or_part. apply G2; assumption.
    - cbn in P, B. apply andb_true_iff in P. destruct P as [P1 P2]. apply negb_true_iff in P2.
      destruct (IH st k P1 A B) as (er & s1 & [R1 A1 K1 N1 S1 G1]).
      exists (Not (not_part er)), s1. constructor.
      + cbn [transform]. rewrite R1. reflexivity.
      + exact A1.
      + exact K1.
      + discriminate.
      + intros ps K d e. rewrite (N1 P2). cbn [sat pair_holds]. rewrite (S1 ps K d e). reflexivity.
      + intros ps K d e M. rewrite (N1 P2). cbn [regular]. apply G1; assumption.
    - cbn [pair_plain] in P. destruct (operator_of o) as [c|] eqn:O; [|discriminate].
      pose proof (operator_type o c O) as T. cbn [constants] in B.
      apply orb_true_iff in P. destruct P as [P|P].
      + apply andb_true_iff in P. destruct P as [CL P]. destruct (column_left l CL) as (CC & pl & x & -> & VL).
        apply orb_true_iff in P. destruct P as [CR|CR].
        * destruct (column_right r CR) as (pr & y & -> & VR).
          exists (Keys c x y), st. constructor.
          -- cbn [transform]. rewrite T. reflexivity.
          -- cbn [constants]. rewrite !N.add_0_r. exact A.
          -- apply keeps_refl.
          -- reflexivity.
          -- intros ps K d e. cbn [sat pair_holds]. split.
             ++ intros (a & b & E1 & E2 & S). exists c, a, b. rewrite VL, VR. auto.
             ++ intros (c' & a & b & E0 & E1 & E2 & S). rewrite VL in E1. rewrite VR in E2. exists a, b.
                rewrite O in E0. injection E0 as ->. auto.
          -- intros ps K d e M. cbn [pair_matched] in M. rewrite VL, VR in M. cbn [regular].
             destruct (field d x), (field e y); exact M.
        * destruct (pair_constant r CR) as (v & NV & VR & C1 & _).
          assert (R : forall st, transform (Op o (Col pl x) r) st = do c <- compare_type o; do v <- node_value r;
                        let (id, s1) := add_parameter v st in Ok (Param c x id, s1)).
          { intros st0. destruct r as [| [ | | ] | | | | | | | | | ]; try discriminate CR; reflexivity. }
          rewrite C1 in B. cbn [constants] in B.
          destruct (add_ok st k v A) as (s1 & E & A1 & K1 & L1); [lia|].
          exists (Param c x k), s1. constructor.
          -- rewrite R, T. cbn [rbind]. rewrite NV. cbn [rbind]. rewrite E. reflexivity.
          -- cbn [constants]. rewrite C1. exact A1.
          -- exact K1.
          -- reflexivity.
          -- intros ps K d e. cbn [sat pair_holds]. split.
             ++ intros (a & b & E1 & E2 & S). exists c, a, b. rewrite VL, VR.
                rewrite (K _ _ L1) in E2. injection E2 as <-. auto.
             ++ intros (c' & a & b & E0 & E1 & E2 & S). rewrite VL in E1. rewrite VR in E2. injection E2 as <-.
                exists a, v. rewrite O in E0. injection E0 as <-. split; [exact E1|]. split; [apply K; exact L1|exact S].
          -- intros ps K d e M. cbn [pair_matched] in M. rewrite VL, VR in M. cbn [regular]. rewrite (K _ _ L1).
             destruct (field d x); exact M.
      + apply andb_true_iff in P. destruct P as [P SY]. apply andb_true_iff in P. destruct P as [CL CR].
        destruct (column_left r CR) as (CC' & pr & x & -> & VR).
        destruct (pair_constant l CL) as (v & NV & VL & C1 & CC).
        assert (R : forall st, transform (Op o l (Col pr x)) st = do c <- compare_type o; do v <- node_value l;
                      let (id, s1) := add_parameter v st in Ok (Param c x id, s1)).
        { intros st0. destruct l as [| [ | | ] | | | | | | | | | ]; try discriminate CL; reflexivity. }
        rewrite C1 in B. cbn [constants] in B.
        destruct (add_ok st k v A) as (s1 & E & A1 & K1 & L1); [lia|].
        assert (SYM : forall a b, stands c a b <-> stands c b a).
        { intros a b. destruct c; try discriminate SY; cbn [stands]; rewrite (order_eq_sym a b); reflexivity. }
        exists (Param c x k), s1. constructor.
        * rewrite R, T. cbn [rbind]. rewrite NV. cbn [rbind]. rewrite E. reflexivity.
        * cbn [constants]. rewrite C1, N.add_0_r. exact A1.
        * exact K1.
        * reflexivity.
        * intros ps K d e. cbn [sat pair_holds]. split.
          -- intros (a & b & E1 & E2 & S). exists c, b, a. rewrite VL, VR.
             rewrite (K _ _ L1) in E2. injection E2 as <-. rewrite SYM. auto.
          -- intros (c' & b & a & E0 & E1 & E2 & S). rewrite VR in E2. rewrite VL in E1. injection E1 as <-.
             exists a, v. rewrite O in E0. injection E0 as <-. rewrite SYM. split; [exact E2|]. split; [apply K; exact L1|exact S].
        * intros ps K d e M. cbn [pair_matched] in M. rewrite CC, VL, VR in M. cbn [regular]. rewrite (K _ _ L1).
          destruct (field d x); exact M.
    - cbn in P, B. destruct (IH st k P A B) as (e & s1 & [R1 A1 K1 N1 S1 G1]).
      exists e, s1. constructor; try assumption.
      cbn [transform]. destruct a; try discriminate P; exact R1.
  Qed.

  Theorem delete_using_ok n g us stored : well_stored stored -> pair_plain t u n = true -> (constants n <= 65536)%N ->
    (forall l r, In l stored -> In r us -> pair_matched t u n l r = true /\ (g l r = true <-> pair_holds t u n l r)) ->
    exists reported,
      delete_statement [us] (Some n) stored = Ok (filter (fun l => negb (existsb (g l) us)) stored, reported) /\
      Permutation reported (ids (filter (fun l => existsb (g l) us) stored)).
  Proof.
    intros W P C H. destruct (pair_transform n no_params 0 P added_none) as (e & st & [R AD K N S RG]); [lia|].
    unfold delete_statement. rewrite R. cbn [rbind].
    rewrite (delete_join_spec _ g).
    - set (f := fun l => existsb (g l) us).
      destruct (delete_where (fun d => Ok (f d)) f stored W (fun _ _ => eq_refl)) as (found & E & D & RP).
      rewrite (scan_all _ f) in E by reflexivity. injection E as <-.
      exists (snd (delete stored (filter f stored))). split; [|exact RP]. f_equal.
      change (filter (fun l => negb (existsb (g l) us)) stored) with (filter (fun d => negb (f d)) stored). rewrite <- D.
      unfold delete. destruct (fold_left delete_one (filter f stored) (stored, [])). reflexivity.
    - intros l r L I. destruct (H l r L I) as [M GH].
      destruct (eval_sat e (vals st) l (Some r) (RG _ (keeps_refl _) l r M)) as (b & E & Q). rewrite E. f_equal.
      pose proof (S _ (keeps_refl _) l r) as SD. destruct b, (g l r); try reflexivity; exfalso.
      + assert (false = true) by (apply GH, SD, Q; reflexivity). discriminate.
      + assert (false = true) by (apply Q, SD, GH; reflexivity). discriminate.
  Qed.
End Using.

(** ** What the statements do otherwise *)
Lemma constant_node n v : SqlSpec.constant n = true -> constant_of n = Some v -> node_value n = Ok v.
Proof. intros C E. destruct (constant_ok n C) as (v' & N & V). congruence. Qed.
Lemma one_row c x v : node_value x = Ok v -> fill [c] [x] [] = Ok [(c, v)].
Proof. intros E. cbn [fill]. rewrite E. reflexivity. Qed.
Lemma two_zero c x y v w : node_value x = Ok v -> node_value y = Ok w -> id_of [(c, v)] = 0%N -> id_of [(c, w)] = 0%N ->
  insert_values [c] [[x]; [y]] [] = Ok ([{| did := 0; fields := [(c, w)] |}], [0%N; 0%N]) /\
  forall d, did d = 0%N -> insert_values [c] [[x]] [d] = Ok ([d], []).
Proof.
  intros X Y I J. assert (S : simple [(c, c)] = true) by (unfold simple; cbn; rewrite beqb_same; reflexivity).
  unfold insert_values. cbn [fill_rows map]. rewrite (one_row c x v X), (one_row c y w Y). cbn [rbind].
  unfold insert_documents. rewrite S. unfold document. rewrite I, J. split; [reflexivity|].
  intros d D. unfold primary_key_scan. cbn [existsb did has_id]. unfold has_id. cbn. rewrite D. reflexivity.
Qed.
Lemma no_id c x y v w : beqb (str "_id") c = false -> constant_of x = Some v -> constant_of y = Some w ->
  SqlSpec.constant x = true -> SqlSpec.constant y = true ->
  insert_values [c] [[x]; [y]] [] = Ok ([{| did := 0; fields := [(c, w)] |}], [0%N; 0%N]) /\
  forall d, did d = 0%N -> insert_values [c] [[x]] [d] = Ok ([d], []).
Proof.
  intros B X Y CX CY. apply (two_zero c x y v w); [apply constant_node; assumption|apply constant_node; assumption| |];
    unfold id_of; cbn [lookup]; rewrite B; reflexivity.
Qed.
Lemma number_invalid s : OidModel.is_valid s = false -> number_of s = 0%N.
Proof. intros H. unfold number_of, OidModel.parse. rewrite H. reflexivity. Qed.
Lemma bad_id x y v w : constant_of x = Some v -> constant_of y = Some w ->
  SqlSpec.constant x = true -> SqlSpec.constant y = true ->
  (forall s, v = DStr s \/ w = DStr s -> OidModel.is_valid s = false) ->
  insert_values [str "_id"] [[x]; [y]] [] = Ok ([{| did := 0; fields := [(str "_id", w)] |}], [0%N; 0%N]) /\
  forall d, did d = 0%N -> insert_values [str "_id"] [[x]] [d] = Ok ([d], []).
Proof.
  intros X Y CX CY V. apply (two_zero (str "_id") x y v w); [apply constant_node; assumption|apply constant_node; assumption| |];
    unfold id_of; cbn [lookup]; rewrite beqb_same.
  - destruct v; try reflexivity. apply number_invalid, V. left. reflexivity.
  - destruct w; try reflexivity. apply number_invalid, V. right. reflexivity.
Qed.
Lemma insert_one cols row fs : NoDup cols -> fill cols row [] = Ok fs ->
  insert_values cols [row] [] = Ok ([document fs], [did (document fs)]).
Proof.
  intros N F. unfold insert_values. cbn [fill_rows]. rewrite F. cbn [rbind].
  rewrite insert_simple by apply simple_same. reflexivity.
Qed.
Lemma column_counts :
  (forall x r rows stored, insert_values [] ((x :: r) :: rows) stored = Err UB) /\
  (forall c x y v r rows stored, node_value x = Ok v -> insert_values [c] ((x :: y :: r) :: rows) stored = Err UB) /\
  (forall c, beqb c (str "_id") = false -> forall s v, OidModel.is_valid s = true ->
     exists d, field d c = None /\ insert_values [str "_id"; c] [[Lit (LStr s)]] [] = Ok ([d], [did d]) /\
       insert_values [c; str "_id"] [[Lit (LInt v); Lit (LStr s)]] [] =
       Ok ([{| did := did d; fields := [(c, DInt TapeModel.I64 v); (str "_id", DStr s)] |}], [did d])).
Proof.
  split; [reflexivity|]. split.
  - intros c x y v r rows stored E. unfold insert_values. cbn [fill_rows fill]. rewrite E. reflexivity.
  - intros c B s v V.
    assert (B' : beqb (str "_id") c = false).
    { apply beqb_neq. intros <-. rewrite beqb_same in B. discriminate. }
    assert (N1 : NoDup [str "_id"; c]).
    { constructor; [|constructor; [intros []|constructor]]. intros [E|[]]. subst c. rewrite beqb_same in B. discriminate. }
    assert (N2 : NoDup [c; str "_id"]).
    { constructor; [|constructor; [intros []|constructor]]. intros [E|[]]. rewrite E, beqb_same in B. discriminate. }
    exists (document [(str "_id", DStr s)]). split; [unfold field; cbn [document fields lookup]; rewrite B; reflexivity|]. split.
    + apply insert_one; [exact N1|reflexivity].
    + rewrite (insert_one _ _ [(c, DInt TapeModel.I64 v); (str "_id", DStr s)] N2).
      * assert (I : id_of [(c, DInt TapeModel.I64 v); (str "_id", DStr s)] = id_of [(str "_id", DStr s)])
          by (unfold id_of; cbn [lookup]; rewrite B'; reflexivity).
        unfold document. cbn [did]. rewrite I. reflexivity.
      * cbn [fill node_value rbind set_field]. rewrite B'. reflexivity.
Qed.
Lemma expressions_stored c stored : beqb (str "_id") c = false -> stored = [] ->
  (forall o x y, insert_values [c] [[Op o x y]] stored = Ok ([{| did := 0; fields := [(c, DNull)] |}], [0%N])) /\
  (forall o x, insert_values [c] [[Sign o x]] stored = Ok ([{| did := 0; fields := [(c, DNull)] |}], [0%N])) /\
  (forall s t, beqb s (str "t") = false ->
     insert_values [c] [[Cast (LStr s) t]] stored = Ok ([{| did := 0; fields := [(c, DBool false)] |}], [0%N])) /\
  insert_values [c] [[Lit LNull]] stored = Err UB.
Proof.
  intros B ->. assert (N : NoDup [c]) by (constructor; [intros []|constructor]).
  assert (G : forall x v, node_value x = Ok v -> insert_values [c] [[x]] [] = Ok ([{| did := 0; fields := [(c, v)] |}], [0%N])).
  { intros x v E. rewrite (insert_one [c] [x] _ N (one_row c x v E)). unfold document.
    assert (I : id_of [(c, v)] = 0%N) by (unfold id_of; cbn [lookup]; rewrite B; reflexivity). rewrite I. reflexivity. }
  split; [intros; apply G; reflexivity|]. split; [intros; apply G; reflexivity|]. split; [|reflexivity].
  intros s t E. apply G. cbn [node_value]. rewrite E. reflexivity.
Qed.
Lemma shared t u f d : beqb u t = false -> let m := share u t {| docs := [d]; colls := [(t, [0%nat])] |} in
  contents m u = [d] /\ contents (change_all f t m) u = [f d] /\ contents (change_all f u m) t = [f d].
Proof.
  intros B m. assert (B' : beqb t u = false).
  { apply beqb_neq. intros ->. rewrite beqb_same in B. discriminate. }
  assert (A : colls m = [(t, [0%nat]); (u, [0%nat])]).
  { unfold m, share, addresses. cbn [colls docs set_coll lookup]. rewrite B, beqb_same. reflexivity. }
  assert (AT : addresses m t = [0%nat]) by (unfold addresses; rewrite A; cbn [lookup]; rewrite beqb_same; reflexivity).
  assert (AU : addresses m u = [0%nat]) by (unfold addresses; rewrite A; cbn [lookup]; rewrite B, beqb_same; reflexivity).
  assert (C : forall x y, addresses m x = [0%nat] -> addresses m y = [0%nat] -> contents (change_all f x m) y = [f d]).
  { intros x y X Y. unfold contents, change_all. rewrite X. change (addresses {| docs := _; colls := colls m |} y) with (addresses m y).
    rewrite Y. reflexivity. }
  split; [|split; apply C; assumption]. unfold contents. rewrite AU. reflexivity.
Qed.
Lemma delete_everything us stored : well_stored stored ->
  exists reported, delete_statement us None stored = Ok ([], reported) /\ Permutation reported (ids stored).
Proof.
  intros W. destruct (delete_ok None (fun _ => true) stored W (fun _ _ => eq_refl)) as (r & E & P).
  exists r. rewrite filter_all in P by reflexivity. split; [|exact P].
  change (delete_statement us None stored) with (delete_statement [] None stored). rewrite E. f_equal. f_equal.
  clear. induction stored as [|x l IH]; [reflexivity|exact IH].
Qed.
