(** Proofs about the index on disk. *)
From Coq Require Import List ZArith Bool Lia Permutation.
From Verif Require Import Bytes Outcome ByteOrd MsgpackModel MsgpackProofs OidModel OidProofs.
From Verif Require DocPackModel BtModel BtSpec BtProofs4 BtProofs5 BtProofs6 LValModel IndexModel IndexSpec IndexProofs.
From Verif Require Import DixModel DixSpec.
Import ListNotations.
Local Open Scope Z_scope.

(** ** Items *)
Definition key_mp (k : Z) : mp := if (0 <=? k) then MUint (Z.to_N k) else MNeg (Z.to_N (- k - 1)).
Lemma item_enc k o : item k o = enc (MArr [key_mp k; MStr (to_string o)]).
Proof.
  unfold item, DocPackModel.pack_int, key_mp. cbn [enc flat_map map concat length]. destruct (0 <=? k); cbn [enc]; rewrite ?app_nil_r; reflexivity.
Qed.
Lemma item_wf k o : fits64 k = true -> oid_wf o = true -> wf (MArr [key_mp k; MStr (to_string o)]) = true.
Proof.
  intros F W. unfold fits64 in F. apply andb_prop in F. unfold oid_wf in W. apply Nat.eqb_eq in W.
  pose proof (to_string_length o) as L. rewrite W in L. change (length (to_string o) = 24%nat) in L.
  cbn [wf forallb length]. rewrite L. unfold key_mp. destruct (Z.leb_spec 0 k); cbn [wf]; rewrite ?andb_true_r; apply andb_true_intro; split; try reflexivity.
  all: rewrite ?andb_true_r; try apply andb_true_intro; try split; try reflexivity; lia.
Qed.
Lemma item_unpack k o : fits64 k = true -> oid_wf o = true ->
  unpack (item k o) = Some (MArr [key_mp k; MStr (to_string o)], []).
Proof.
  intros F W. rewrite item_enc. rewrite <- (app_nil_r (enc _)). apply unpack_enc. now apply item_wf.
Qed.
Lemma item_key_ok k o : fits64 k = true -> oid_wf o = true -> item_key (item k o) = Ok k.
Proof.
  intros F W. unfold item_key. rewrite item_unpack by assumption. unfold key_mp. destruct (Z.leb_spec 0 k); f_equal; lia.
Qed.
Lemma item_id_ok k o : fits64 k = true -> oid_wf o = true -> item_id (item k o) = Ok o.
Proof.
  intros F W. unfold item_id. rewrite item_unpack by assumption. f_equal. now apply parse_to_string.
Qed.

Definition good (e : Z * oid) : Prop := fits64 (fst e) = true /\ oid_wf (snd e) = true.
Definition ent (e : Z * oid) : Z * list byte := (fst e, item (fst e) (snd e)).
Lemma item_ids_ok l : Forall good l -> item_ids (map (fun e => item (fst e) (snd e)) l) = Ok (map snd l).
Proof.
  induction 1 as [ | e l (F & W) G IH]; [reflexivity | ]. cbn [map item_ids]. rewrite item_id_ok by assumption.
  cbn [rbind]. rewrite IH. reflexivity.
Qed.
Lemma ent_inj a b : good a -> good b -> ent a = ent b -> a = b.
Proof.
  intros (F & W) (F' & W') E. pose proof (f_equal fst E) as E1. pose proof (f_equal snd E) as E2. cbn [ent fst snd] in E1, E2.
  assert (X : item_id (item (fst a) (snd a)) = item_id (item (fst b) (snd b))) by now rewrite E2.
  rewrite !item_id_ok in X by assumption. injection X as X. destruct a, b. cbn [fst snd] in *. congruence.
Qed.
Lemma ids_of_entries d r : Forall good r -> Permutation d (map ent r) ->
  exists os, item_ids (map snd d) = Ok os /\ Permutation os (map snd r).
Proof.
  intros G P. destruct (Permutation_map_inv _ _ P) as (r' & -> & P'). rewrite map_map. cbn [ent snd].
  exists (map snd r'). split.
  - apply item_ids_ok. rewrite Forall_forall in *. intros e I. apply G. eapply Permutation_in; [symmetry; exact P' | exact I].
  - apply Permutation_map. now symmetry.
Qed.
Lemma filter_ent (f : Z -> bool) r : filter (fun e => f (fst e)) (map ent r) = map ent (filter (fun e => f (fst e)) r).
Proof. induction r as [ | e r IH]; [reflexivity | ]. cbn [map filter ent fst]. destruct (f (fst e)); cbn [map]; now rewrite IH. Qed.
Lemma good_filter f r : Forall good r -> Forall good (filter f r).
Proof. rewrite !Forall_forall. intros G e I. apply filter_In in I. apply G, I. Qed.
Lemma map_fst_ent r : map fst (map ent r) = map fst r.
Proof. rewrite map_map. reflexivity. Qed.

(** ** One call *)
Section Calls.
Variable M : nat.
Hypothesis HM : (12 <= M)%nat.

Record Good (x : index) (r : list (Z * oid)) : Prop := {
  G_inv : BtProofs4.Inv M (tree x) (map ent r);
  G_keys : NoDup (map fst r);
  G_good : Forall good r;
  G_saved : r <> [] -> saved x = Some (BtModel.icount (tree x), BtModel.leaves (tree x)) }.

Lemma Good0 : Good index0 [].
Proof. constructor; [apply BtProofs4.inv_bt0 | constructor | constructor | congruence]. Qed.

Lemma find_ok x r k : Good x r -> find x k = Ok (map snd (filter (fun e => fst e =? k) r)).
Proof.
  intros [I K G _]. unfold find. rewrite (BtProofs6.get_items_ok M HM _ _ k I). cbn [rbind].
  rewrite (filter_ent (fun z => z =? k)), map_map. cbn [ent snd]. apply item_ids_ok. now apply good_filter.
Qed.

Lemma firstn_enough {A} (n : nat) (l : list A) : (length l <= n)%nat -> firstn n l = l.
Proof. intro H. now apply firstn_all2. Qed.
Lemma filter_short {A} (f : A -> bool) l : (length (filter f l) <= length l)%nat.
Proof. induction l as [ | a l IH]; cbn; [lia | ]. destruct (f a); cbn; lia. Qed.
Lemma good_range e : good e -> least < fst e < greatest.
Proof. intros (F & _). unfold fits64 in F. apply andb_prop in F. unfold least, greatest. lia. Qed.
Lemma filter_ext_in' {A} (f g : A -> bool) l : (forall x, In x l -> f x = g x) -> filter f l = filter g l.
Proof. induction l as [ | a l IH]; intro H; [reflexivity | ]. cbn. rewrite (H a), IH; [reflexivity | | ]; intuition. Qed.

Lemma lower_ok x r k : Good x r ->
  exists os, lower_bound x k = Ok os /\ Permutation os (map snd (filter (fun e => fst e <? k) r)).
Proof.
  intros [I K G _]. unfold lower_bound. rewrite (BtProofs6.scan_ascending_ok M HM _ _ _ _ _ _ I) by discriminate.
  cbn [rbind]. rewrite firstn_enough.
  2:{ unfold all. etransitivity; [apply filter_short | ]. apply Nat.le_succ_diag_r. }
  apply ids_of_entries; [now apply good_filter | ].
  rewrite (BtProofs6.perm_filter _ _ _ (BtProofs4.I_perm M _ _ I)).
  rewrite <- (filter_ent (fun z => z <? k)). erewrite filter_ext_in'; [reflexivity | ].
  intros e Ie. apply in_map_iff in Ie. destruct Ie as (e' & <- & Ie). rewrite Forall_forall in G.
  pose proof (good_range _ (G _ Ie)). unfold BtSpec.within. cbn [ent fst]. lia.
Qed.
Lemma upper_ok x r k : Good x r ->
  exists os, upper_bound x k = Ok os /\ Permutation os (map snd (filter (fun e => k <? fst e) r)).
Proof.
  intros [I K G _]. unfold upper_bound. rewrite (BtProofs6.scan_decending_ok M HM _ _ _ _ _ _ I) by discriminate.
  cbn [rbind]. rewrite firstn_enough.
  2:{ unfold all. etransitivity; [apply filter_short | ]. rewrite rev_length. apply Nat.le_succ_diag_r. }
  apply ids_of_entries; [now apply good_filter | ].
  rewrite (BtProofs6.perm_filter _ _ (map ent r)).
  2:{ rewrite <- (BtProofs4.I_perm M _ _ I). symmetry. apply Permutation_rev. }
  rewrite <- (filter_ent (fun z => k <? z)). erewrite filter_ext_in'; [reflexivity | ].
  intros e Ie. apply in_map_iff in Ie. destruct Ie as (e' & <- & Ie). rewrite Forall_forall in G.
  pose proof (good_range _ (G _ Ie)). unfold BtSpec.within. cbn [ent fst]. lia.
Qed.

Lemma filter_two {A} (f g h : A -> bool) l : (forall x, In x l -> h x = f x || g x) -> (forall x, In x l -> f x && g x = false) ->
  Permutation (filter f l ++ filter g l) (filter h l).
Proof.
  induction l as [ | a l IH]; intros H D; [reflexivity | ]. cbn [filter].
  assert (P : Permutation (filter f l ++ filter g l) (filter h l)) by (apply IH; intros; [apply H | apply D]; now right).
  pose proof (H a (or_introl eq_refl)) as Ha. pose proof (D a (or_introl eq_refl)) as Da.
  destruct (f a), (g a); cbn in Ha, Da; rewrite Ha; try discriminate; cbn [app].
  - now constructor.
  - rewrite <- P. symmetry. apply Permutation_middle.
  - exact P.
Qed.
Lemma both_ok a b (f g h : Z * oid -> bool) r :
  (exists os, a = Ok os /\ Permutation os (map snd (filter f r))) ->
  (exists os, b = Ok os /\ Permutation os (map snd (filter g r))) ->
  (forall x, In x r -> h x = f x || g x) -> (forall x, In x r -> f x && g x = false) ->
  exists os, both a b = Ok os /\ Permutation os (map snd (filter h r)).
Proof.
  intros (x & -> & Px) (y & -> & Py) H D. exists (x ++ y). split; [reflexivity | ].
  rewrite Px, Py, <- map_app. apply Permutation_map. now apply filter_two.
Qed.

Lemma agent_find_ok x r c k : Good x r ->
  exists os, agent_find x c k = Ok os /\ Permutation os (map snd (filter (fun e => true_for c (fst e) k) r)).
Proof.
  intro G. pose proof (lower_ok x r k G) as L. pose proof (upper_ok x r k G) as U.
  assert (F : exists os, find x k = Ok os /\ Permutation os (map snd (filter (fun e => fst e =? k) r)))
    by (eexists; split; [exact (find_ok x r k G) | reflexivity]).
  destruct c; cbn [agent_find true_for]; try assumption.
  - apply (both_ok _ _ _ _ _ _ L U); intros; lia.
  - apply (both_ok _ _ _ _ _ _ F U); intros; lia.
  - apply (both_ok _ _ _ _ _ _ L F); intros; lia.
Qed.

(** ** Changes *)
Lemma flush_saved t s r : BtProofs4.Inv M t (map ent r) -> r <> [] ->
  saved (flush t s) = Some (BtModel.icount t, BtModel.leaves t).
Proof.
  intros I N. unfold flush. cbn [saved]. destruct (BtModel.leaves t) eqn:E; [ | reflexivity].
  exfalso. apply N. pose proof (BtProofs4.I_perm M _ _ I) as P. rewrite E in P. cbn in P.
  apply Permutation_nil in P. now destruct r.
Qed.
Lemma oid_eqb_spec a b : reflect (a = b) (oid_eqb a b).
Proof. apply beqb_spec. Qed.
Lemma related_spec r k o : related r k o = true <-> In (k, o) r.
Proof.
  unfold related. rewrite existsb_exists. split.
  - intros ((k', o') & I & H). cbn [fst snd] in H. apply andb_prop in H as (H1 & H2). apply Z.eqb_eq in H1.
    destruct (oid_eqb_spec o' o); [ | discriminate]. now subst.
  - intro I. exists (k, o). split; [exact I | ]. cbn [fst snd]. rewrite Z.eqb_refl. now destruct (oid_eqb_spec o o).
Qed.

Lemma insert_ok x r k o : Good x r -> careful r (Insert k o) ->
  exists y, insert M x k o = Ok y /\ Good y (after r (Insert k o)).
Proof.
  intros G (F & W & C). pose proof G as [I K Gd S]. unfold insert. rewrite (find_ok _ _ _ G). cbn [rbind after].
  destruct (related r k o) eqn:R.
  - apply related_spec in R. exists x. split; [ | exact G].
    replace (existsb _ _) with true; [reflexivity | ]. symmetry. apply existsb_exists. exists o. split.
    + apply in_map_iff. exists (k, o). split; [reflexivity | ]. apply filter_In. split; [exact R | apply Z.eqb_refl].
    + now destruct (oid_eqb_spec o o).
  - assert (N : ~ In k (map fst r)).
    { intro H. apply C in H. apply related_spec in H. congruence. }
    replace (existsb _ _) with false.
    2:{ symmetry. apply not_true_is_false. rewrite existsb_exists. intros (o' & H & _). apply in_map_iff in H.
        destruct H as (e & _ & H). apply filter_In in H. destruct H as (H & E). apply N. apply in_map_iff. exists e.
        split; [lia | exact H]. }
    rewrite item_key_ok by assumption. cbn [rbind].
    destruct (BtProofs4.append_ok M HM (tree x) (map ent r) k (item k o) I) as (t' & E & I').
    { now rewrite map_fst_ent. }
    rewrite E. cbn [rbind]. eexists. split; [reflexivity | ].
    assert (I'' : BtProofs4.Inv M t' (map ent ((k, o) :: r))) by exact I'.
    constructor; [exact I'' | constructor; assumption | constructor; [split; assumption | exact Gd] | ].
    intros _. eapply flush_saved; [exact I'' | discriminate].
Qed.

Lemma one_key r k o : NoDup (map fst r) -> In (k, o) r ->
  filter (fun e => negb ((fst e =? k) && oid_eqb (snd e) o)) r = filter (fun e => negb (fst e =? k)) r.
Proof.
  intros K I. apply filter_ext_in'. intros (k', o') I'. cbn [fst snd]. destruct (Z.eqb_spec k' k) as [-> | ]; [ | reflexivity].
  cbn [andb negb]. destruct (oid_eqb_spec o' o) as [ | N]; [reflexivity | ]. exfalso. apply N.
  clear - K I I'. induction r as [ | e r IH]; [destruct I | ]. cbn [map] in K. inversion K as [ | ? ? N' K']. subst.
  destruct I as [-> | I], I' as [E | I'].
  - congruence.
  - exfalso. apply N'. apply in_map_iff. exists (k, o'). split; [reflexivity | exact I'].
  - subst e. exfalso. apply N'. apply in_map_iff. exists (k, o). split; [reflexivity | exact I].
  - now apply IH.
Qed.
Lemma nodup_filter (f : Z * oid -> bool) r : NoDup (map fst r) -> NoDup (map fst (filter f r)).
Proof. apply IndexProofs.NoDup_filter_map. Qed.

Lemma remove_ok x r k o : Good x r -> careful r (Remove k o) ->
  exists y, remove M x k o = Ok y /\ Good y (after r (Remove k o)).
Proof.
  intros G (F & W & C). pose proof G as [I K Gd S]. unfold remove. rewrite (find_ok _ _ _ G). cbn [rbind after].
  destruct (related r k o) eqn:R.
  - apply related_spec in R. rewrite (one_key r k o K R).
    destruct (map snd (filter (fun e => fst e =? k) r)) as [ | o1 os] eqn:E.
    { exfalso. assert (X : In o (map snd (filter (fun e => fst e =? k) r))); [ | now rewrite E in X].
      apply in_map_iff. exists (k, o). split; [reflexivity | ]. apply filter_In. split; [exact R | apply Z.eqb_refl]. }
    rewrite item_key_ok by assumption. cbn [rbind].
    destruct (BtProofs5.remove_ok M HM (tree x) (map ent r) k (item k o) I) as (t' & Er & I').
    { apply in_map_iff. exists (k, o). split; [reflexivity | exact R]. }
    rewrite Er. cbn [rbind]. eexists. split; [reflexivity | ].
    assert (I'' : BtProofs4.Inv M t' (map ent (filter (fun e => negb (fst e =? k)) r))).
    { rewrite <- (filter_ent (fun z => negb (z =? k))). exact I'. }
    constructor; [exact I'' | now apply nodup_filter | now apply good_filter | ].
    intro N. now apply (flush_saved _ _ _ I'' N).
  - assert (N : ~ In k (map fst r)). { intro H. apply C in H. apply related_spec in H. congruence. }
    rewrite (IndexProofs.filter_none (fun e : Z * oid => fst e =? k)).
    2:{ intros e H. apply Z.eqb_neq. intro E. apply N. apply in_map_iff. exists e. split; [exact E | exact H]. }
    exists x. split; [reflexivity | ]. rewrite IndexProofs.filter_all; [exact G | ].
    intros e H. destruct (Z.eqb_spec (fst e) k) as [E | ]; [ | reflexivity]. exfalso. apply N. apply in_map_iff. exists e.
    split; [exact E | exact H].
Qed.

Lemma reopen_ok x r : Good x r -> r <> [] -> Good (reopen M x) r.
Proof.
  intros [I K Gd S] N. specialize (S N). unfold reopen. rewrite S.
  assert (L : BtModel.leaves (tree x) <> []).
  { intro E. pose proof (BtProofs4.I_perm M _ _ I) as P. rewrite E in P. cbn in P. apply Permutation_nil in P. now destruct r. }
  constructor; cbn [tree saved]; [now apply BtProofs6.inv_reload | exact K | exact Gd | ].
  intros _. reflexivity.
Qed.

Lemma step_ok x r p : Good x r -> careful r p ->
  exists os y, step M x p = Ok (os, y) /\ Good y (after r p) /\
    match p with Find c v => Permutation os (map snd (filter (fun e => true_for c (fst e) v) r)) | _ => os = [] end.
Proof.
  intros G C. destruct p as [k o | k o | c k | ]; cbn [step].
  - destruct (insert_ok x r k o G C) as (y & E & G'). rewrite E. cbn [rbind]. eauto.
  - destruct (remove_ok x r k o G C) as (y & E & G'). rewrite E. cbn [rbind]. eauto.
  - destruct (agent_find_ok x r c k G) as (os & E & P). rewrite E. cbn [rbind]. eauto.
  - exists [], (reopen M x). split; [reflexivity | ]. split; [now apply reopen_ok | reflexivity].
Qed.
Lemma run_ok : forall ps x r, Good x r -> careful_all r ps ->
  exists outs y, run M x ps = Ok (outs, y) /\ answers r ps outs.
Proof.
  induction ps as [ | p ps IH]; intros x r G C; [exists [], x; split; [reflexivity | exact I] | ].
  destruct C as (Cp & C). destruct (step_ok x r p G Cp) as (os & y & E & G' & A).
  destruct (IH y (after r p) G' C) as (outs & z & E' & A'). exists (os :: outs), z. cbn [run]. rewrite E. cbn [rbind].
  rewrite E'. cbn [rbind answers]. auto.
Qed.
End Calls.

(** ** The collection *)
Notation P := (IndexSpec.of_type LValModel.TI64) (only parsing).
Notation OP := (IndexProofs.of_type_ordered LValModel.TI64 eq_refl) (only parsing).
Definition kn (d : oid * Z) : LValModel.lval * N := (key (snd d), number (fst d)).
Definition swap (d : oid * Z) : Z * oid := (snd d, fst d).

Lemma key_P k : P (key k).
Proof. exists k. reflexivity. Qed.
Lemma key_holds c v k : IndexSpec.holds_for c (key v) (key k) = true_for c k v.
Proof.
  destruct c; unfold IndexSpec.holds_for, LValModel.veqb, LValModel.vneb, LValModel.vgtb, LValModel.vltb, LValModel.vgeb, LValModel.vleb, true_for; cbn; lia.
Qed.

Lemma fill_build l : fill l = IndexProofs.build (map kn l).
Proof.
  unfold fill, IndexProofs.build. generalize (@nil (LValModel.lval * N)). induction l as [ | d l IH]; intro m; [reflexivity | ].
  cbn [map fold_left]. rewrite IH. reflexivity.
Qed.
Lemma kn_P l e : In e (map kn l) -> P (fst e).
Proof. intro I. apply in_map_iff in I. destruct I as (d & <- & _). apply key_P. Qed.

Lemma found_ok l : NoDup (map fst l) -> forall ds, incl ds l -> found l (map fst ds) = Ok ds.
Proof.
  intro N. induction ds as [ | d ds IH]; intro I; [reflexivity | ]. cbn [map found].
  assert (F : List.find (fun e => oid_eqb (fst d) (fst e)) l = Some d).
  { assert (Id : In d l) by (apply I; now left). clear - N Id. induction l as [ | e l IH]; [destruct Id | ].
    cbn [List.find]. cbn [map] in N. inversion N as [ | ? ? Ni N']. subst. destruct (oid_eqb_spec (fst d) (fst e)) as [E | E].
    - destruct Id as [-> | Id]; [reflexivity | ]. exfalso. apply Ni. rewrite <- E. now apply in_map.
    - destruct Id as [-> | Id]; [congruence | ]. now apply IH. }
  rewrite F, IH; [reflexivity | ]. intros e Ie. apply I. now right.
Qed.

Section Coll.
Variable M : nat.
Hypothesis HM : (12 <= M)%nat.

Record Ok_coll (c : coll) (l rec : list (oid * Z)) : Prop := {
  O_docs : docs c = l;
  O_ids : NoDup (map fst l);
  O_keys : NoDup (map snd l);
  O_rec : incl rec l;
  O_recn : NoDup rec;
  O_disk : Good M (disk c) (map swap l);
  O_sorted : IndexProofs.keys_in P (memory c) /\ IndexProofs.sorted (memory c);
  O_mem : Permutation (memory c) (map kn rec) }.

Lemma Good_perm x r r' : Permutation r r' -> Good M x r -> Good M x r'.
Proof.
  intros Pm [I K G S]. constructor.
  - eapply BtProofs6.inv_perm; [apply Permutation_map; exact Pm | exact I].
  - eapply Permutation_NoDup; [apply Permutation_map; exact Pm | exact K].
  - rewrite Forall_forall in *. intros e Ie. apply G. eapply Permutation_in; [symmetry; exact Pm | exact Ie].
  - intro N. apply S. intro E. subst r. apply Permutation_nil in Pm. congruence.
Qed.
Lemma swap_keys l : map fst (map swap l) = map snd l.
Proof. rewrite map_map. reflexivity. Qed.
Lemma swap_ids l : map snd (map swap l) = map fst l.
Proof. rewrite map_map. reflexivity. Qed.
Lemma in_swap l o k : In (k, o) (map swap l) <-> In (o, k) l.
Proof.
  rewrite in_map_iff. split.
  - intros ((o', k') & E & I). cbn in E. injection E as -> ->. exact I.
  - intro I. exists (o, k). split; [reflexivity | exact I].
Qed.
Lemma filter_swap (f : Z -> bool) l : filter (fun e => f (fst e)) (map swap l) = map swap (filter (fun d => f (snd d)) l).
Proof. induction l as [ | d l IH]; [reflexivity | ]. cbn [map filter swap fst]. destruct (f (snd d)); cbn [map]; now rewrite IH. Qed.

Lemma same_id (l : list (oid * Z)) o k k' : NoDup (map fst l) -> In (o, k) l -> In (o, k') l -> k = k'.
Proof.
  intros N I I'. induction l as [ | e l IH]; [destruct I | ]. cbn [map] in N. inversion N as [ | ? ? Ni N']. subst.
  destruct I as [-> | I], I' as [E | I'].
  - congruence.
  - exfalso. apply Ni. apply in_map_iff. exists (o, k'). split; [reflexivity | exact I'].
  - subst e. exfalso. apply Ni. apply in_map_iff. exists (o, k). split; [reflexivity | exact I].
  - now apply IH.
Qed.
Lemma same_key (l : list (oid * Z)) o o' k : NoDup (map snd l) -> In (o, k) l -> In (o', k) l -> o = o'.
Proof.
  intros N I I'. induction l as [ | e l IH]; [destruct I | ]. cbn [map] in N. inversion N as [ | ? ? Ni N']. subst.
  destruct I as [-> | I], I' as [E | I'].
  - congruence.
  - exfalso. apply Ni. apply in_map_iff. exists (o', k). split; [reflexivity | exact I'].
  - subst e. exfalso. apply Ni. apply in_map_iff. exists (o, k). split; [reflexivity | exact I].
  - now apply IH.
Qed.

Lemma add_ok c l rec o k : Ok_coll c l rec -> sensible l rec (Add o k) ->
  exists c', add M c o k = Ok c' /\ Ok_coll c' (l ++ [(o, k)]) (rec ++ [(o, k)]).
Proof.
  intros [Od Oi Ok' Or On Ox (Os1 & Os2) Om] (F & W & Ni & Nk). unfold add.
  destruct (insert_ok M HM (disk c) (map swap l) k o Ox) as (x & E & G).
  { split; [unfold fits64; lia | ]. split; [exact W | ]. rewrite swap_keys. intro H. contradiction. }
  rewrite E. cbn [rbind]. eexists. split; [reflexivity | ]. constructor; cbn [docs memory disk].
  - now rewrite Od.
  - rewrite map_app. apply IndexProofs.NoDup_app; [exact Oi | cbn; constructor; [tauto | constructor] | ].
    intros y H [<- | []]. contradiction.
  - rewrite map_app. apply IndexProofs.NoDup_app; [exact Ok' | cbn; constructor; [tauto | constructor] | ].
    intros y H [<- | []]. contradiction.
  - intros d I. apply in_app_or in I. apply in_or_app. destruct I as [I | I]; [left; now apply Or | now right].
  - apply IndexProofs.NoDup_app; [exact On | constructor; [tauto | constructor] | ].
    intros y H [<- | []]. apply Ni. apply in_map_iff. exists (o, k). split; [reflexivity | now apply Or].
  - cbn [after] in G. replace (related (map swap l) k o) with false in G.
    + eapply Good_perm; [ | exact G]. rewrite map_app. cbn [map swap snd fst]. apply Permutation_cons_append.
    + symmetry. apply not_true_is_false. rewrite related_spec, in_swap. intro H. apply Ni. apply in_map_iff. exists (o, k). auto.
  - split; [apply (IndexProofs.insert_keys P); [apply key_P | exact Os1] | apply (IndexProofs.insert_sorted P OP); [apply key_P | exact Os1 | exact Os2]].
  - rewrite IndexProofs.insert_perm, map_app, Om. cbn [map]. apply Permutation_cons_append.
Qed.

Lemma split_id (l : list (oid * Z)) o k : In (o, k) l -> NoDup l -> (forall k', In (o, k') l -> k' = k) ->
  exists A B, l = A ++ (o, k) :: B /\ filter (fun d => negb (oid_eqb o (fst d))) l = A ++ B.
Proof.
  intros I N U. destruct (in_split _ _ I) as (A & B & ->). exists A, B. split; [reflexivity | ].
  pose proof (NoDup_remove_2 _ _ _ N) as N2. rewrite in_app_iff in N2.
  rewrite filter_app. cbn [filter fst]. destruct (oid_eqb_spec o o); [ | congruence]. cbn [negb].
  rewrite !IndexProofs.filter_all; [reflexivity | | ].
  - intros (o', k') Ib. cbn [fst]. destruct (oid_eqb_spec o o') as [<- | ]; [ | reflexivity].
    exfalso. apply N2. right. rewrite <- (U k'); [exact Ib | ]. apply in_or_app. right. now right.
  - intros (o', k') Ib. cbn [fst]. destruct (oid_eqb_spec o o') as [<- | ]; [ | reflexivity].
    exfalso. apply N2. left. rewrite <- (U k'); [exact Ib | ]. apply in_or_app. now left.
Qed.
Lemma nodup_fst (l : list (oid * Z)) : NoDup (map fst l) -> NoDup l.
Proof. apply NoDup_map_inv. Qed.

Lemma delete_ok c l rec o k : Ok_coll c l rec -> sensible l rec (Delete o k) ->
  exists c', delete M c o k = Ok c' /\ Ok_coll c' (changed l (Delete o k)) (recent l rec (Delete o k)).
Proof.
  intros [Od Oi Ok' Or On Ox (Os1 & Os2) Om] (Il & Ir). unfold delete.
  assert (Gd : good (k, o)).
  { pose proof (G_good M _ _ Ox) as G. rewrite Forall_forall in G. apply G. now apply in_swap. }
  destruct (split_id rec o k Ir On) as (A & B & Er & Ef).
  { intros k' I. apply (same_id l o k' k Oi); [now apply Or | exact Il]. }
  assert (Cl : IndexProofs.class (key k) (memory c) = [kn (o, k)]).
  { apply Permutation_length_1_inv. symmetry. unfold IndexProofs.class.
    rewrite (IndexProofs.filter_perm _ _ _ Om), Er, map_app, filter_app. cbn [map filter].
    assert (Z0 : forall C, (forall d, In d C -> In d l /\ d <> (o, k)) ->
      filter (fun e => LValModel.veqb (fst e) (key k)) (map kn C) = []).
    { intros C HC. apply IndexProofs.filter_none. intros e Ie. apply in_map_iff in Ie. destruct Ie as ((o', k') & <- & Ie).
      destruct (HC _ Ie) as (H1 & H2). cbn [kn fst snd].
      change (LValModel.veqb (key k') (key k)) with (IndexSpec.holds_for IndexModel.CEq (key k) (key k')). rewrite key_holds. cbn [true_for].
      apply Z.eqb_neq. intros ->. apply H2. f_equal. exact (same_key l o' o k Ok' H1 Il). }
    pose proof On as On'. rewrite Er in On'. pose proof (NoDup_remove_2 _ _ _ On') as N2. rewrite in_app_iff in N2.
    rewrite (Z0 A), (Z0 B).
    - cbn [kn fst snd]. change (LValModel.veqb (key k) (key k)) with (IndexSpec.holds_for IndexModel.CEq (key k) (key k)).
      rewrite key_holds. cbn [true_for]. rewrite Z.eqb_refl. reflexivity.
    - intros d I. split; [apply Or; rewrite Er; apply in_or_app; right; now right | intros ->; tauto].
    - intros d I. split; [apply Or; rewrite Er; apply in_or_app; now left | intros ->; tauto]. }
  destruct (IndexProofs.remove_some P OP (key k) (memory c) (kn (o, k)) [] (key_P k) Os1 Os2 Cl) as (A' & C' & Em & Er' & _).
  rewrite Er'. cbn [rbind].
  destruct (remove_ok M HM (disk c) (map swap l) k o Ox) as (x & E & G).
  { split; [apply Gd | ]. split; [apply Gd | ]. intros _. now apply in_swap. }
  rewrite E. cbn [rbind]. eexists. split; [reflexivity | ].
  assert (Sub : forall s : list (oid * Z), incl (filter (fun d => negb (oid_eqb o (fst d))) s) s).
  { intros s d I. apply filter_In in I. apply I. }
  constructor; cbn [docs memory disk changed recent].
  - now rewrite Od.
  - now apply IndexProofs.NoDup_filter_map.
  - now apply IndexProofs.NoDup_filter_map.
  - intros d I. apply filter_In in I. destruct I as (I & J). apply filter_In. split; [now apply Or | exact J].
  - now apply NoDup_filter.
  - cbn [after] in G. erewrite <- (filter_ext_in' (fun e => negb (oid_eqb o (snd e))) _ (map swap l)) in G.
    + replace (map swap (filter _ l)) with (filter (fun e => negb (oid_eqb o (snd e))) (map swap l)); [exact G | ].
      clear. induction l as [ | d l IH]; [reflexivity | ]. cbn [map filter swap snd fst]. destruct (oid_eqb o (fst d)); cbn [negb map]; now rewrite IH.
    + intros (k', o') I. apply in_swap in I. cbn [fst snd]. destruct (oid_eqb_spec o o') as [<- | Nq].
      * rewrite (same_id l o k' k Oi I Il), Z.eqb_refl. now destruct (oid_eqb_spec o o).
      * destruct (oid_eqb_spec o' o) as [-> | ]; [congruence | ]. now rewrite andb_false_r.
  - rewrite Em in Os1, Os2. split; [eapply IndexProofs.keys_remove; exact Os1 | eapply IndexProofs.sorted_remove; exact Os2].
  - rewrite Ef. apply (Permutation_cons_inv (a := kn (o, k))).
    transitivity (memory c); [rewrite Em; cbn [app]; apply Permutation_middle | ]. rewrite Om, Er, !map_app. cbn [map].
    symmetry. apply Permutation_middle.
Qed.

Lemma query_ok c l rec p k limit : Ok_coll c l rec ->
  exists out c', query c p k limit = Ok (out, c') /\ Ok_coll c' l (matching l p k) /\ right_answer l p k limit out.
Proof.
  intros [Od Oi Ok' Or On Ox (Os1 & Os2) Om]. unfold query.
  destruct (agent_find_ok M HM (disk c) (map swap l) p k Ox) as (os & E & Pm). rewrite E. cbn [rbind].
  rewrite (filter_swap (fun z => true_for p z k)), swap_ids in Pm. fold (matching l p k) in Pm.
  destruct (Permutation_map_inv _ _ Pm) as (ds & -> & Pd).
  assert (In_l : incl ds l).
  { intros d I. apply (Permutation_in d (Permutation_sym Pd)) in I. apply filter_In in I. apply I. }
  rewrite Od, (found_ok l Oi ds In_l). cbn [rbind]. rewrite fill_build.
  destruct (IndexProofs.build_ok P OP (map kn ds) (kn_P ds)) as (K & S & B).
  eexists _, _. split; [reflexivity | ]. split.
  - constructor; cbn [docs memory disk]; try assumption; try reflexivity.
    + intros d I. apply filter_In in I. apply I.
    + apply NoDup_filter. now apply nodup_fst.
    + split; assumption.
    + rewrite B. apply Permutation_map. now symmetry.
  - rewrite (IndexProofs.search_filter P OP p (key k) limit _ (key_P k) K S).
    rewrite IndexProofs.filter_all.
    + exists (map snd (IndexProofs.build (map kn ds))). split.
      * rewrite B, map_map. cbn [kn snd]. rewrite Pd. reflexivity.
      * unfold IndexSpec.limited. destruct (limit =? -1); [reflexivity | ]. symmetry. apply firstn_map.
    + intros e I. apply (Permutation_in e B) in I. apply in_map_iff in I. destruct I as (d & <- & I). cbn [kn fst].
      rewrite key_holds. apply (Permutation_in d (Permutation_sym Pd)) in I. apply filter_In in I. apply I.
Qed.

Lemma perform_ok c l rec a : Ok_coll c l rec -> sensible l rec a ->
  exists out c', perform M c a = Ok (out, c') /\ Ok_coll c' (changed l a) (recent l rec a) /\
    match a with Query p v limit => right_answer l p v limit out | _ => out = [] end.
Proof.
  intros O S. destruct a as [o k | o k | p v limit]; cbn [perform].
  - destruct (add_ok c l rec o k O S) as (c' & E & O'). rewrite E. cbn [rbind]. eauto.
  - destruct (delete_ok c l rec o k O S) as (c' & E & O'). rewrite E. cbn [rbind]. eauto.
  - destruct (query_ok c l rec p v limit O) as (out & c' & E & O' & R). rewrite E. eauto.
Qed.
Lemma history_ok : forall acts c l rec, Ok_coll c l rec -> sensible_all l rec acts ->
  exists outs c', history M c acts = Ok (outs, c') /\ right_answers l acts outs.
Proof.
  induction acts as [ | a acts IH]; intros c l rec O S; [exists [], c; split; [reflexivity | exact I] | ].
  destruct S as (Sa & S). destruct (perform_ok c l rec a O Sa) as (out & c1 & E & O' & R).
  destruct (IH c1 _ _ O' S) as (outs & c2 & E' & R'). exists (out :: outs), c2. cbn [history]. rewrite E. cbn [rbind].
  rewrite E'. cbn [rbind right_answers]. auto.
Qed.
Lemma created_empty : Ok_coll (create []) [] [].
Proof.
  constructor; try (constructor; fail); try reflexivity; try (intros ? []); try apply Good0.
  - split; [intros ? [] | constructor].
Qed.
End Coll.

(** An index that is created on a collection with documents finds none of them. *)
Lemma created_blind l p k limit : exists c, query (create l) p k limit = Ok ([], c).
Proof. destruct p; eexists; reflexivity. Qed.

(** Deleting a document that is in the collection and not among the recent ones. *)
Lemma remove_absent k l : (forall e, In e l -> LValModel.vltb (fst e) k = false -> LValModel.vltb k (fst e) = true) ->
  IndexModel.remove_key k l = Err UB.
Proof.
  intro H. unfold IndexModel.remove_key. replace (IndexModel.find_pos k l) with (@None nat); [reflexivity | ]. symmetry.
  unfold IndexModel.find_pos. induction l as [ | e l IH]; [reflexivity | ]. cbn [IndexModel.lower_bound].
  destruct (LValModel.vltb (fst e) k) eqn:E; cbn [nth_error].
  - specialize (IH (fun x I => H x (or_intror I))). destruct (nth_error l (IndexModel.lower_bound k l)) as [x | ]; [ | reflexivity].
    destruct (LValModel.vltb k (fst x)); [reflexivity | discriminate].
  - now rewrite (H e (or_introl eq_refl) E).
Qed.
Lemma history_final M (HM : (12 <= M)%nat) : forall acts c l rec outs c', Ok_coll M c l rec -> sensible_all l rec acts ->
  history M c acts = Ok (outs, c') -> Ok_coll M c' (fst (final l rec acts)) (snd (final l rec acts)).
Proof.
  induction acts as [ | a acts IH]; intros c l rec outs c' O S H.
  - cbn [history] in H. injection H as _ <-. exact O.
  - destruct S as (Sa & S). destruct (perform_ok M HM c l rec a O Sa) as (out & c1 & E & O' & _).
    cbn [history] in H. rewrite E in H. cbn [rbind] in H. destruct (history M c1 acts) as [(xs, c2) | ] eqn:E2; [ | discriminate].
    cbn [rbind] in H. injection H as _ <-. cbn [final]. exact (IH _ _ _ _ _ O' S E2).
Qed.
Lemma delete_unknown M (HM : (12 <= M)%nat) acts outs c o k : sensible_all [] [] acts ->
  history M (create []) acts = Ok (outs, c) ->
  In (o, k) (fst (final [] [] acts)) -> ~ In (o, k) (snd (final [] [] acts)) ->
  history M c [Delete o k] = Err UB.
Proof.
  intros S H Il Nr. pose proof (history_final M HM acts _ [] [] _ _ (created_empty M) S H) as O.
  set (l := fst (final [] [] acts)) in *. set (rec := snd (final [] [] acts)) in *.
  cbn [history perform]. unfold delete. rewrite remove_absent; [reflexivity | ].
  intros e Ie E. destruct O as [_ _ Ok' Or _ _ _ Om]. apply (Permutation_in e Om) in Ie. apply in_map_iff in Ie.
  destruct Ie as ((o', k') & <- & Ie). cbn [kn fst snd] in *.
  change (IndexSpec.holds_for IndexModel.CLt (key k) (key k') = false) in E. rewrite key_holds in E. cbn [true_for] in E.
  change (IndexSpec.holds_for IndexModel.CGt (key k) (key k') = true). rewrite key_holds. cbn [true_for].
  assert (k' <> k); [ | lia]. intros ->. apply Nr. rewrite <- (same_key l o' o k Ok'); [exact Ie | now apply Or | exact Il].
Qed.
