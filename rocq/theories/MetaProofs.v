From Verif Require Import Bytes Outcome ByteOrd OMap MetaModel MetaSpec.
From Coq Require Import Permutation ZifyBool ZifyNat ZifyN.
Ltac Zify.zify_post_hook ::= Z.div_mod_to_equations.

(** ** map facts specialised to names *)
Notation bfind := (mfind bcmp).
Notation binsert := (minsert bcmp).
Notation berase := (merase bcmp).
Notation bsorted := (msorted bcmp).

Lemma bfind_insert {V} d d' (v : V) m :
  bfind d' (binsert d v m) = if beqb d' d then Some v else bfind d' m.
Proof. rewrite (mfind_insert_dec _ bcmp_eq). unfold beqb. destruct (bcmp d' d); reflexivity. Qed.
Lemma bfind_erase {V} d d' (m : list (name * V)) : bsorted m ->
  bfind d' (berase d m) = if beqb d' d then None else bfind d' m.
Proof. intros H. rewrite (mfind_erase_dec _ bcmp_eq _ _ _ H). unfold beqb. destruct (bcmp d' d); reflexivity. Qed.
Lemma bsorted_insert {V} d (v : V) m : bsorted m -> bsorted (binsert d v m).
Proof. apply (msorted_insert _ bcmp_eq bcmp_sym bcmp_trans). Qed.
Lemma bsorted_erase {V} d (m : list (name * V)) : bsorted m -> bsorted (berase d m).
Proof. apply msorted_erase. Qed.

Lemma existsb_beqb c l : existsb (beqb c) l = true <-> In c l.
Proof.
  rewrite existsb_exists. split.
  - intros (x & Hx & E). apply beqb_eq in E. subst. exact Hx.
  - intros H. exists c. split; [exact H|apply beqb_refl].
Qed.

Lemma existsb_filter c d l :
  existsb (beqb d) (filter (fun x => negb (beqb c x)) l) = negb (beqb d c) && existsb (beqb d) l.
Proof.
  induction l as [|x l IH]; cbn; [rewrite andb_false_r; reflexivity|].
  destruct (beqb_spec c x) as [->|N]; cbn.
  - rewrite IH. destruct (beqb_spec d x) as [->|N]; cbn; [|reflexivity]. reflexivity.
  - rewrite IH. destruct (beqb_spec d x) as [->|N2]; cbn; [|reflexivity].
    destruct (beqb_spec x c) as [->|N3]; [contradiction|reflexivity].
Qed.

Lemma filter_shorter c l : (length (filter (fun x => negb (beqb c x)) l) <? length l)%nat = existsb (beqb c) l.
Proof.
  induction l as [|x l IH]; [reflexivity|]. cbn [filter existsb length].
  assert (L : (length (filter (fun x => negb (beqb c x)) l) <= length l)%nat).
  { clear. induction l as [|x l IH]; cbn; [lia|]. destruct (negb _); cbn; lia. }
  destruct (beqb c x); cbn [negb length orb].
  - apply Nat.ltb_lt. lia.
  - rewrite <- IH. reflexivity.
Qed.

(** ** Refinement *)
Definition R (m : meta) (s : cat) : Prop :=
  bsorted m /\
  forall d, match bfind d m with
            | None => has_db s d = false /\ (forall c, has_coll s d c = false)
            | Some l => has_db s d = true /\ NoDup l /\ (forall c, existsb (beqb c) l = has_coll s d c)
            end.

Lemma R_init : R [] cat_empty.
Proof. split; [constructor|]. intros d. cbn. auto. Qed.

Lemma R_db m s d : R m s -> is_exists_database m d = has_db s d.
Proof.
  intros [_ H]. specialize (H d). unfold is_exists_database, mmem. destruct (bfind d m); intuition congruence.
Qed.

Lemma R_coll m s d c : R m s -> is_exists_collection m d c = has_coll s d c.
Proof.
  intros [_ H]. specialize (H d). unfold is_exists_collection.
  destruct (bfind d m); [destruct H as (_ & _ & H)|destruct H as (_ & H)]; rewrite H; reflexivity.
Qed.

Lemma NoDup_snoc {A} (l : list A) x : NoDup l -> ~ In x l -> NoDup (l ++ [x]).
Proof.
  intros H N. apply NoDup_rev in H. rewrite <- (rev_involutive (l ++ [x])), rev_app_distr.
  apply NoDup_rev. cbn. constructor; [|exact H]. rewrite <- in_rev. exact N.
Qed.

Lemma R_step m s o : R m s -> R (fst (meta_step m o)) (fst (cat_step s o)) /\
                              snd (meta_step m o) = snd (cat_step s o).
Proof.
  intros HR. pose proof HR as [HS H]. destruct o as [d|d|d c|d c]; cbn [meta_step cat_step].
  - unfold append_database. rewrite (R_db _ _ _ HR). destruct (has_db s d) eqn:E; cbn [fst snd negb].
    + auto.
    + split; [|reflexivity]. split; [apply bsorted_insert; exact HS|].
      intros d'. rewrite bfind_insert. pose proof (H d') as H'. destruct (beqb_spec d' d) as [->|N]; cbn.
      * rewrite beqb_refl. cbn. split; [reflexivity|]. split; [constructor|].
        destruct (bfind d m); [destruct H' as (X & _); congruence|].
        intros c'. symmetry. apply H'.
      * destruct (beqb_spec d' d); [contradiction|]. cbn. exact H'.
  - unfold remove_database. rewrite (R_db _ _ _ HR). cbn [fst snd]. split; [|reflexivity].
    split; [apply bsorted_erase; exact HS|]. intros d'. rewrite bfind_erase by exact HS.
    pose proof (H d') as H'. cbn. destruct (beqb_spec d' d) as [->|N]; cbn.
    + auto.
    + exact H'.
  - unfold append_collection. rewrite (R_coll _ _ _ _ HR).
    pose proof (H d) as Hd.
    destruct (bfind d m) as [l|] eqn:F.
    + destruct Hd as (Hdb & Hnd & Hc). rewrite Hdb. cbn [andb].
      destruct (has_coll s d c) eqn:E; cbn [negb fst snd]; [auto|].
      split; [|reflexivity]. split; [apply bsorted_insert; exact HS|].
      intros d'. rewrite bfind_insert. pose proof (H d') as H'. cbn [has_db has_coll].
      destruct (beqb_spec d' d) as [->|N].
      * split; [exact Hdb|]. split.
        -- apply NoDup_snoc; [exact Hnd|]. rewrite <- existsb_beqb, Hc, E. discriminate.
        -- intros c'. rewrite existsb_app, Hc. cbn. rewrite orb_false_r. apply orb_comm.
      * cbn [andb orb]. exact H'.
    + destruct Hd as (Hdb & Hc). rewrite Hdb, Hc. cbn. auto.
  - unfold remove_collection. pose proof (H d) as Hd.
    destruct (bfind d m) as [l|] eqn:F; cbn [fst snd].
    + destruct Hd as (Hdb & Hnd & Hc). rewrite filter_shorter.
      destruct (existsb (beqb c) l) eqn:E; cbn [fst snd].
      * split; [|rewrite <- Hc; symmetry; exact E].
        split; [apply bsorted_insert; exact HS|].
        intros d'. rewrite bfind_insert. pose proof (H d') as H'. cbn [has_db has_coll].
        destruct (beqb_spec d' d) as [->|N]; cbn [andb].
        -- split; [exact Hdb|]. split; [apply NoDup_filter; exact Hnd|].
           intros c'. rewrite existsb_filter, Hc. reflexivity.
        -- exact H'.
      * split; [|rewrite <- Hc; symmetry; exact E]. split; [exact HS|].
        intros d'. pose proof (H d') as H'. cbn [has_db has_coll].
        destruct (bfind d' m) as [l'|] eqn:F'.
        -- destruct H' as (A & B & C). split; [exact A|]. split; [exact B|]. intros c'.
           destruct (beqb_spec d' d) as [->|N]; cbn [andb]; [|apply C].
           destruct (beqb_spec c' c) as [->|N]; cbn [negb andb]; [|apply C].
           rewrite F in F'. injection F' as <-. exact E.
        -- destruct H' as (A & B). split; [exact A|]. intros c'. rewrite B. apply andb_false_r.
    + destruct Hd as (Hdb & Hc). split; [|symmetry; apply Hc]. split; [exact HS|].
      intros d'. pose proof (H d') as H'. cbn [has_db has_coll].
      destruct (bfind d' m) as [l'|] eqn:F'.
      * destruct H' as (A & B & C). split; [exact A|]. split; [exact B|]. intros c'.
        destruct (beqb_spec d' d) as [->|N]; cbn [andb]; [congruence|apply C].
      * destruct H' as (A & B). split; [exact A|]. intros c'. rewrite B. apply andb_false_r.
Qed.

Lemma R_run_gen ops m s : R m s ->
  R (fold_left (fun m o => fst (meta_step m o)) ops m) (fold_left (fun s o => fst (cat_step s o)) ops s).
Proof.
  revert m s. induction ops as [|o ops IH]; intros m s H; [exact H|].
  cbn [fold_left]. apply IH. apply R_step. exact H.
Qed.

Lemma R_run ops : R (meta_run ops) (cat_run ops).
Proof. apply R_run_gen. apply R_init. Qed.

Lemma R_lists m s : R m s -> lists m s.
Proof.
  intros HR. pose proof HR as [HS H]. unfold lists, databases. repeat split.
  - apply (msorted_nodup _ bcmp_eq). exact HS.
  - intros Hin. rewrite <- (R_db _ _ _ HR). apply (mmem_true _ bcmp_eq). exact Hin.
  - intros Hb. rewrite <- (R_db _ _ _ HR) in Hb. apply (mmem_true _ bcmp_eq) in Hb. exact Hb.
  - intros d. unfold collections. specialize (H d). destruct (bfind d m); [apply H|constructor].
  - intros Hin. unfold collections in Hin. specialize (H d). destruct (bfind d m).
    + destruct H as (_ & _ & <-). apply existsb_beqb. exact Hin.
    + destruct Hin.
  - intros Hb. unfold collections. specialize (H d). destruct (bfind d m).
    + destruct H as (_ & _ & E). rewrite <- E in Hb. apply existsb_beqb. exact Hb.
    + destruct H as (_ & E). congruence.
Qed.

Lemma meta_refines ops o :
  lists (meta_run ops) (cat_run ops) /\
  snd (meta_step (meta_run ops) o) = snd (cat_step (cat_run ops) o).
Proof. split; [apply R_lists, R_run|apply R_step, R_run]. Qed.

(** ** File round trip *)
Lemma mem_byte_cons b x l : mem_byte b (x :: l) = (match bytecmp b x with Eq => true | _ => false end) || mem_byte b l.
Proof. reflexivity. Qed.

Lemma index_of_skip c x r : mem_byte c x = false -> index_of c (x ++ c :: r) = Some (length x).
Proof.
  induction x as [|a x IH]; intros H; cbn [app index_of].
  - rewrite (proj2 (bytecmp_eq c c) eq_refl). reflexivity.
  - rewrite mem_byte_cons in H. apply orb_false_iff in H as [H1 H2]. rewrite H1, IH by exact H2. reflexivity.
Qed.

Lemma index_of_app c x r : mem_byte c x = false ->
  index_of c (x ++ r) = match index_of c r with Some i => Some (length x + i)%nat | None => None end.
Proof.
  induction x as [|a x IH]; intros H; cbn [app index_of length plus].
  - destruct (index_of c r); reflexivity.
  - rewrite mem_byte_cons in H. apply orb_false_iff in H as [H1 H2]. rewrite H1, IH by exact H2.
    destruct (index_of c r); reflexivity.
Qed.

Lemma skipn_len {A} (pre x : list A) : skipn (length pre) (pre ++ x) = x.
Proof. rewrite skipn_app, skipn_all, Nat.sub_diag. reflexivity. Qed.

Lemma firstn_len {A} (x post : list A) : firstn (length x) (x ++ post) = x.
Proof. rewrite firstn_app, firstn_all, Nat.sub_diag. cbn. apply app_nil_r. Qed.

Lemma find_from_at c pre x r : mem_byte c x = false ->
  find_from c (pre ++ x ++ c :: r) (length pre) = Some (length pre + length x)%nat.
Proof. intros H. unfold find_from. rewrite skipn_len, index_of_skip by exact H. reflexivity. Qed.

Definition coll_ok (c : name) : bool := negb (mem_byte SEMI c) && negb (mem_byte NL c).
Definition render_cols (cs : list name) : list byte := flat_map (fun c => c ++ [SEMI]) cs.

Lemma mem_app b x y : mem_byte b (x ++ y) = mem_byte b x || mem_byte b y.
Proof. apply existsb_app. Qed.

Lemma nl_cols cs : forallb coll_ok cs = true -> mem_byte NL (render_cols cs) = false.
Proof.
  induction cs as [|c cs IH]; intros H; [reflexivity|]. cbn [forallb] in H.
  apply andb_true_iff in H as [H1 H2]. unfold render_cols. cbn [flat_map].
  rewrite !mem_app. change (flat_map (fun c => c ++ [SEMI]) cs) with (render_cols cs). rewrite IH by exact H2.
  unfold coll_ok in H1. apply andb_true_iff in H1 as [_ H1]. apply negb_true_iff in H1. rewrite H1. reflexivity.
Qed.

Lemma parse_cols_render cs : forall fuel pre db tail m,
  forallb coll_ok cs = true -> (length cs < fuel)%nat ->
  parse_cols fuel (pre ++ render_cols cs ++ NL :: tail) db
             (Some (length pre + length (render_cols cs))%nat) (length pre) m =
  Ok (fold_left (fun m c => fst (append_collection m db c)) cs m).
Proof.
  induction cs as [|c cs IH]; intros fuel pre db tail m Hok Hf; (destruct fuel as [|fuel]; [lia|]); cbn [parse_cols].
  - cbn [render_cols flat_map app length]. unfold find_from. rewrite skipn_len.
    change (index_of SEMI (NL :: tail)) with
        (match index_of SEMI tail with Some i => Some (S i) | None => None end).
    destruct (index_of SEMI tail) as [i|]; [|reflexivity].
    replace (length pre + S i <? length pre + 0)%nat with false by (symmetry; apply Nat.ltb_ge; lia).
    reflexivity.
  - cbn [forallb] in Hok. apply andb_true_iff in Hok as [H1 H2].
    pose proof H1 as H1'. unfold coll_ok in H1'. apply andb_true_iff in H1' as [Hs Hn].
    apply negb_true_iff in Hs. cbn [length] in Hf.
    change (render_cols (c :: cs)) with ((c ++ [SEMI]) ++ render_cols cs).
    replace (pre ++ ((c ++ [SEMI]) ++ render_cols cs) ++ NL :: tail)
      with (pre ++ c ++ SEMI :: render_cols cs ++ NL :: tail) by (rewrite <- !app_assoc; reflexivity).
    rewrite find_from_at by exact Hs. rewrite !app_length. cbn [length].
    replace (length pre + length c <? _)%nat with true by (symmetry; apply Nat.ltb_lt; lia).
    unfold substr. rewrite skipn_len.
    replace (length pre + length c - length pre)%nat with (length c) by lia. rewrite firstn_len.
    replace (pre ++ c ++ SEMI :: render_cols cs ++ NL :: tail)
      with ((pre ++ c ++ [SEMI]) ++ render_cols cs ++ NL :: tail) by (rewrite <- !app_assoc; reflexivity).
    replace (length pre + length c + 1)%nat with (length (pre ++ c ++ [SEMI]))
      by (rewrite !app_length; cbn; lia).
    replace (length pre + (length c + 1 + length (render_cols cs)))%nat
      with (length (pre ++ c ++ [SEMI]) + length (render_cols cs))%nat by (rewrite !app_length; cbn; lia).
    rewrite IH by (auto; lia). reflexivity.
Qed.

Definition add_entry (m : meta) (e : name * list name) : meta :=
  fold_left (fun m c => fst (append_collection m (fst e) c)) (snd e) (fst (append_database m (fst e))).
Definition entry_ok (e : name * list name) : bool := negb (mem_byte COLON (fst e)) && forallb coll_ok (snd e).

Lemma render_cols_length cs : (length cs <= length (render_cols cs))%nat.
Proof.
  induction cs as [|c cs IH]; [cbn; lia|]. change (render_cols (c :: cs)) with ((c ++ [SEMI]) ++ render_cols cs).
  rewrite !app_length. cbn [length]. lia.
Qed.

Lemma parse_lines_render l : forall fuel pre m,
  forallb entry_ok l = true -> (length l < fuel)%nat ->
  parse_lines fuel (pre ++ render l) (length pre) m = Ok (fold_left add_entry l m).
Proof.
  induction l as [|[db cs] l IH]; intros fuel pre m Hok Hf; (destruct fuel as [|fuel]; [lia|]); cbn [parse_lines].
  - cbn [render flat_map]. unfold find_from. rewrite skipn_len. reflexivity.
  - cbn [forallb] in Hok. apply andb_true_iff in Hok as [H1 H2]. cbn [length] in Hf.
    pose proof H1 as H1'. unfold entry_ok in H1'. cbn [fst snd] in H1'. apply andb_true_iff in H1' as [Hc Hcs].
    apply negb_true_iff in Hc.
    change (render ((db, cs) :: l)) with (render_entry (db, cs) ++ render l).
    unfold render_entry. cbn [fst snd]. change (flat_map (fun c => c ++ [SEMI]) cs) with (render_cols cs).
    replace (pre ++ (db ++ [COLON] ++ render_cols cs ++ [NL]) ++ render l)
      with (pre ++ db ++ COLON :: render_cols cs ++ NL :: render l)
      by (rewrite <- !app_assoc; cbn [app]; rewrite <- ?app_assoc; reflexivity).
    rewrite find_from_at by exact Hc.
    unfold substr. rewrite skipn_len. replace (length pre + length db - length pre)%nat with (length db) by lia.
    rewrite firstn_len.
    set (pre2 := pre ++ db ++ [COLON]).
    replace (pre ++ db ++ COLON :: render_cols cs ++ NL :: render l)
      with (pre2 ++ render_cols cs ++ NL :: render l)
      by (unfold pre2; rewrite <- !app_assoc; reflexivity).
    replace (length pre + length db + 1)%nat with (length pre2) by (unfold pre2; rewrite !app_length; cbn; lia).
    rewrite find_from_at by (apply nl_cols; exact Hcs).
    rewrite parse_cols_render; [|exact Hcs|].
    2:{ pose proof (render_cols_length cs). rewrite !app_length. lia. }
    cbn [rbind].
    replace (pre2 ++ render_cols cs ++ NL :: render l) with ((pre2 ++ render_cols cs ++ [NL]) ++ render l)
      by (rewrite <- !app_assoc; reflexivity).
    replace (length pre2 + length (render_cols cs) + 1)%nat with (length (pre2 ++ render_cols cs ++ [NL]))
      by (rewrite !app_length; cbn; lia).
    rewrite IH by (auto; lia). reflexivity.
Qed.

Lemma render_length l : (length l <= length (render l))%nat.
Proof.
  induction l as [|e l IH]; [cbn; lia|]. change (render (e :: l)) with (render_entry e ++ render l).
  unfold render_entry. rewrite !app_length. cbn [length]. lia.
Qed.

(** effect of loading entries into the map *)
Lemma add_cols_find db cs : forall m l d, NoDup (l ++ cs) -> bfind db m = Some l ->
  bfind d (fold_left (fun m c => fst (append_collection m db c)) cs m) =
  if beqb d db then Some (l ++ cs) else bfind d m.
Proof.
  induction cs as [|c cs IH]; intros m l d ND F.
  - cbn. rewrite app_nil_r. destruct (beqb_spec d db) as [->|]; auto.
  - cbn [fold_left].
    assert (Hc : ~ In c l).
    { intros Hin. apply NoDup_remove_2 in ND. apply ND. apply in_or_app. auto. }
    unfold append_collection at 2. unfold is_exists_collection. rewrite F.
    replace (existsb (beqb c) l) with false
      by (symmetry; apply not_true_iff_false; rewrite existsb_beqb; exact Hc).
    cbn [fst]. rewrite (IH _ (l ++ [c])).
    + rewrite <- app_assoc. cbn. rewrite bfind_insert. destruct (beqb d db); reflexivity.
    + rewrite <- app_assoc. exact ND.
    + rewrite bfind_insert, beqb_refl. reflexivity.
Qed.

Lemma add_cols_sorted db cs : forall m, bsorted m ->
  bsorted (fold_left (fun m c => fst (append_collection m db c)) cs m).
Proof.
  induction cs as [|c cs IH]; intros m H; [exact H|]. cbn [fold_left]. apply IH.
  unfold append_collection. destruct (is_exists_collection m db c); [exact H|].
  destruct (bfind db m); [apply bsorted_insert|]; exact H.
Qed.

Lemma add_entry_sorted m e : bsorted m -> bsorted (add_entry m e).
Proof.
  intros H. unfold add_entry. apply add_cols_sorted. unfold append_database.
  destruct (is_exists_database m (fst e)); [exact H|apply bsorted_insert; exact H].
Qed.

Lemma add_entry_find m e d : bfind (fst e) m = None -> NoDup (snd e) ->
  bfind d (add_entry m e) = if beqb d (fst e) then Some (snd e) else bfind d m.
Proof.
  intros N ND. unfold add_entry. unfold append_database, is_exists_database, mmem. rewrite N. cbn [fst].
  rewrite (add_cols_find _ _ _ []); [|exact ND|rewrite bfind_insert, beqb_refl; reflexivity].
  rewrite bfind_insert. destruct (beqb d (fst e)); reflexivity.
Qed.

Lemma add_entries l : forall m, bsorted m -> NoDup (map fst l) -> Forall (fun e => NoDup (snd e)) l ->
  (forall e, In e l -> bfind (fst e) m = None) ->
  bsorted (fold_left add_entry l m) /\
  (forall e, In e l -> bfind (fst e) (fold_left add_entry l m) = Some (snd e)) /\
  (forall d, ~ In d (map fst l) -> bfind d (fold_left add_entry l m) = bfind d m).
Proof.
  induction l as [|e l IH]; intros m HS ND NC HN.
  - cbn. intuition.
  - cbn [fold_left]. cbn [map] in ND. inversion ND as [|? ? Hni ND']; subst.
    inversion NC as [|? ? Hce NC']; subst.
    pose proof (HN e (or_introl eq_refl)) as He.
    destruct (IH (add_entry m e)) as (A & B & C); auto using add_entry_sorted.
    { intros e' Hin. rewrite add_entry_find by auto.
      destruct (beqb_spec (fst e') (fst e)) as [E|_].
      - exfalso. apply Hni. rewrite <- E. apply in_map. exact Hin.
      - apply HN. right. exact Hin. }
    split; [exact A|]. split.
    + intros e' [<-|Hin]; [|apply B; exact Hin].
      rewrite C by exact Hni. rewrite add_entry_find by auto. rewrite beqb_refl. reflexivity.
    + intros d Hd. cbn [map In] in Hd. rewrite C by intuition. rewrite add_entry_find by auto.
      destruct (beqb_spec d (fst e)) as [->|_]; [exfalso; intuition|reflexivity].
Qed.

Lemma rebuild m l : bsorted m -> Permutation l m -> Forall (fun e => NoDup (snd e)) m ->
  fold_left add_entry l [] = m.
Proof.
  intros HS HP HN.
  assert (ND : NoDup (map fst l)).
  { apply (Permutation_NoDup (l := map fst m)); [apply Permutation_map; symmetry; exact HP|].
    apply (msorted_nodup _ bcmp_eq). exact HS. }
  assert (HN' : Forall (fun e => NoDup (snd e)) l).
  { rewrite Forall_forall in *. intros x Hx. apply HN. eapply Permutation_in; eassumption. }
  destruct (add_entries l [] ltac:(constructor) ND HN') as (A & B & C); [intros; reflexivity|].
  apply (msorted_ext _ bcmp_eq bcmp_sym); auto.
  intros k. destruct (bfind k m) as [v|] eqn:F.
  - apply (mfind_Some_in _ bcmp_eq) in F. apply (B (k, v)).
    eapply Permutation_in; [symmetry; exact HP|exact F].
  - rewrite C; [reflexivity|]. apply (mfind_None_notin _ bcmp_eq) in F.
    intros Hin. apply F. eapply Permutation_in; [apply Permutation_map; exact HP|exact Hin].
Qed.

Lemma names_ok_entries m : names_ok m = forallb entry_ok m.
Proof. reflexivity. Qed.

Lemma forallb_perm {A} (f : A -> bool) l l' : Permutation l l' -> forallb f l = forallb f l'.
Proof.
  intros HP. apply eq_true_iff_eq. rewrite !forallb_forall. split; intros H x Hx; apply H;
  (eapply Permutation_in; [|exact Hx]); [symmetry|]; exact HP.
Qed.

Lemma R_nodups m s : R m s -> Forall (fun e => NoDup (snd e)) m.
Proof.
  intros [HS H]. rewrite Forall_forall. intros [d l] Hin. cbn. specialize (H d).
  rewrite (in_mfind _ bcmp_eq bcmp_sym _ _ _ HS Hin) in H. apply H.
Qed.

Lemma meta_round_trip ops l :
  names_ok (meta_run ops) = true -> Permutation l (meta_run ops) ->
  open_meta (render l) = Ok (meta_run ops).
Proof.
  intros Hok HP. unfold open_meta.
  rewrite (parse_lines_render l _ []).
  - cbn [length]. f_equal. apply rebuild; [apply R_run|exact HP|apply (R_nodups _ _ (R_run ops))].
  - rewrite (forallb_perm _ _ _ HP). exact Hok.
  - pose proof (render_length l). cbn [app]. lia.
Qed.

(** ** The guard is exact: the parser never produces other names *)
Lemma index_of_firstn c s i : index_of c s = Some i -> mem_byte c (firstn i s) = false.
Proof.
  revert i. induction s as [|x s IH]; intros i H; cbn in H; [discriminate|].
  destruct (bytecmp c x) eqn:E.
  - injection H as <-. reflexivity.
  - destruct (index_of c s) as [j|] eqn:Ej; [|discriminate]. injection H as <-.
    cbn [firstn]. rewrite mem_byte_cons, E, IH by reflexivity. reflexivity.
  - destruct (index_of c s) as [j|] eqn:Ej; [|discriminate]. injection H as <-.
    cbn [firstn]. rewrite mem_byte_cons, E, IH by reflexivity. reflexivity.
Qed.

Lemma index_of_None c s : index_of c s = None -> mem_byte c s = false.
Proof.
  induction s as [|x s IH]; intros H; cbn in H; [reflexivity|].
  rewrite mem_byte_cons. destruct (bytecmp c x); [discriminate| |];
  (destruct (index_of c s); [discriminate|]); rewrite IH by reflexivity; reflexivity.
Qed.

Lemma mem_firstn b n s : mem_byte b s = false -> mem_byte b (firstn n s) = false.
Proof.
  intros H. rewrite <- (firstn_skipn n s), mem_app in H. apply orb_false_iff in H. apply H.
Qed.
Lemma mem_skipn b n s : mem_byte b s = false -> mem_byte b (skipn n s) = false.
Proof.
  intros H. rewrite <- (firstn_skipn n s), mem_app in H. apply orb_false_iff in H. apply H.
Qed.

Lemma find_from_clean c data pos p : find_from c data pos = Some p ->
  mem_byte c (substr data pos (p - pos)) = false /\ (pos <= p)%nat.
Proof.
  unfold find_from, substr. destruct (index_of c (skipn pos data)) as [i|] eqn:E; [|discriminate].
  intros H. injection H as <-. split; [|lia].
  replace (pos + i - pos)%nat with i by lia. apply index_of_firstn. exact E.
Qed.

Lemma names_ok_insert m d l : names_ok m = true -> mem_byte COLON d = false -> forallb coll_ok l = true ->
  names_ok (binsert d l m) = true.
Proof.
  rewrite !names_ok_entries. intros H Hd Hl. apply forallb_forall. intros x Hx. rewrite forallb_forall in H.
  apply insert_in in Hx as [->|Hx].
  - unfold entry_ok. cbn [fst snd]. rewrite Hd. cbn [negb andb]. exact Hl.
  - apply H. exact Hx.
Qed.

Lemma names_ok_find m d l : names_ok m = true -> bfind d m = Some l -> mem_byte COLON d = false /\ forallb coll_ok l = true.
Proof.
  rewrite names_ok_entries, forallb_forall. intros H F. apply (mfind_Some_in _ bcmp_eq) in F.
  specialize (H _ F). unfold entry_ok in H. cbn in H. apply andb_true_iff in H as [H1 H2].
  apply negb_true_iff in H1. auto.
Qed.

Lemma names_ok_append_coll m d c : names_ok m = true -> coll_ok c = true ->
  names_ok (fst (append_collection m d c)) = true.
Proof.
  intros H Hc. unfold append_collection. destruct (is_exists_collection m d c); [exact H|].
  destruct (bfind d m) as [l|] eqn:F; [|exact H]. cbn [fst].
  destruct (names_ok_find _ _ _ H F) as [Hd Hl]. apply names_ok_insert; auto.
  rewrite forallb_app, Hl. cbn. rewrite Hc. reflexivity.
Qed.

Lemma skipn_skipn' {A} a b (l : list A) : skipn a (skipn b l) = skipn (b + a) l.
Proof.
  revert l. induction b as [|b IH]; intros l; [reflexivity|]. destruct l; [rewrite !skipn_nil; reflexivity|].
  cbn. apply IH.
Qed.

Lemma parse_cols_ok fuel : forall data db pos0 pos m m',
  (pos0 <= pos)%nat -> names_ok m = true ->
  parse_cols fuel data db (find_from NL data pos0) pos m = Ok m' -> names_ok m' = true.
Proof.
  induction fuel as [|fuel IH]; intros data db pos0 pos m m' Hp Hm H; cbn [parse_cols] in H; [discriminate|].
  destruct (find_from SEMI data pos) as [pc|] eqn:F; [|injection H as <-; exact Hm].
  destruct (find_from_clean _ _ _ _ F) as [Hs Hle].
  destruct (match find_from NL data pos0 with Some e => (pc <? e)%nat | None => true end) eqn:E;
    [|injection H as <-; exact Hm].
  eapply IH; [|..|exact H]; [lia|]. apply names_ok_append_coll; [exact Hm|].
  unfold coll_ok. rewrite Hs. cbn [negb andb]. apply negb_true_iff.
  unfold find_from in E. destruct (index_of NL (skipn pos0 data)) as [i|] eqn:Ei.
  - apply Nat.ltb_lt in E. apply index_of_firstn in Ei.
    unfold substr.
    replace (skipn pos data) with (skipn (pos - pos0) (skipn pos0 data)) by (rewrite skipn_skipn'; f_equal; lia).
    rewrite firstn_skipn_comm. apply mem_skipn.
    replace (firstn (pos - pos0 + (pc - pos)) (skipn pos0 data))
      with (firstn (pos - pos0 + (pc - pos)) (firstn i (skipn pos0 data))).
    + apply mem_firstn. exact Ei.
    + rewrite firstn_firstn. f_equal. lia.
  - apply index_of_None in Ei. unfold substr.
    replace (skipn pos data) with (skipn (pos - pos0) (skipn pos0 data)) by (rewrite skipn_skipn'; f_equal; lia).
    apply mem_firstn, mem_skipn. exact Ei.
Qed.

Lemma parse_lines_ok fuel : forall data pos m m',
  names_ok m = true -> parse_lines fuel data pos m = Ok m' -> names_ok m' = true.
Proof.
  induction fuel as [|fuel IH]; intros data pos m m' Hm H; cbn [parse_lines] in H; [discriminate|].
  destruct (find_from COLON data pos) as [pd|] eqn:F; [|injection H as <-; exact Hm].
  destruct (find_from_clean _ _ _ _ F) as [Hs Hle].
  destruct (parse_cols _ _ _ _ _ _) as [m2|] eqn:P; [|discriminate]. cbn [rbind] in H.
  assert (names_ok m2 = true) as H2.
  { eapply parse_cols_ok; [|..|exact P]; [lia|]. unfold append_database.
    destruct (is_exists_database m _); [exact Hm|]. cbn [fst]. apply names_ok_insert; auto. }
  destruct (find_from NL data (pd + 1)); [|injection H as <-; exact H2].
  eapply IH; eassumption.
Qed.

Lemma meta_round_trip_iff ops l : Permutation l (meta_run ops) ->
  open_meta (render l) = Ok (meta_run ops) <-> names_ok (meta_run ops) = true.
Proof.
  intros HP. split.
  - intros H. eapply parse_lines_ok; [|exact H]. reflexivity.
  - intros H. apply meta_round_trip; auto.
Qed.

(** ** Recovery point *)
Definition is_digit (b : byte) : bool := ((48 <=? N_of_byte b) && (N_of_byte b <=? 57))%N.

Lemma digit_val n : N_of_byte (digit n) = (48 + n mod 10)%N.
Proof. unfold digit. rewrite N_of_byte_of_N. lia. Qed.

Lemma digit_is_digit n : is_digit (digit n) = true.
Proof. unfold is_digit. rewrite digit_val. lia. Qed.

Lemma digits_val_app a b acc : forallb is_digit a = true ->
  digits_val (a ++ b) acc = digits_val b (digits_val a acc).
Proof.
  revert acc. induction a as [|x a IH]; intros acc H; [reflexivity|].
  cbn [forallb] in H. apply andb_true_iff in H as [H1 H2]. cbn [app digits_val].
  unfold is_digit in H1. rewrite H1. apply IH. exact H2.
Qed.

Lemma dec_digits_app fuel : forall n acc, dec_digits fuel n acc = dec_digits fuel n [] ++ acc.
Proof.
  induction fuel as [|f IH]; intros n acc; [reflexivity|]. cbn [dec_digits].
  destruct (n <? 10)%N; [reflexivity|]. rewrite IH, (IH _ [digit n]), <- app_assoc. reflexivity.
Qed.

Lemma dec_digits_spec fuel : forall n, (n < 2 ^ N.of_nat fuel)%N ->
  digits_val (dec_digits fuel n []) 0 = n /\ forallb is_digit (dec_digits fuel n []) = true /\
  (0 < fuel -> dec_digits fuel n [] <> [])%nat.
Proof.
  induction fuel as [|f IH]; intros n Hn.
  - cbn in *. replace n with 0%N by lia. repeat split. lia.
  - cbn [dec_digits]. destruct (N.ltb_spec n 10).
    + cbn [digits_val forallb]. fold (is_digit (digit n)).
      rewrite !digit_is_digit.
      repeat split; [|discriminate]. rewrite digit_val. lia.
    + rewrite dec_digits_app.
      assert (Hd : (n / 10 < 2 ^ N.of_nat f)%N).
      { rewrite Nat2N.inj_succ, N.pow_succ_r' in Hn. lia. }
      destruct (IH _ Hd) as (A & B & C). repeat split.
      * rewrite digits_val_app by exact B. rewrite A. cbn [digits_val].
        pose proof (digit_is_digit n) as D. unfold is_digit in D. rewrite D. rewrite digit_val. lia.
      * rewrite forallb_app, B. cbn. rewrite digit_is_digit. reflexivity.
      * intros _ E. apply app_eq_nil in E as [_ E]. discriminate.
Qed.

Lemma to_string_spec n :
  digits_val (to_string n) 0 = n /\ forallb is_digit (to_string n) = true /\ to_string n <> [].
Proof.
  unfold to_string. destruct (dec_digits_spec (S (N.to_nat (N.size n))) n) as (A & B & C).
  - rewrite Nat2N.inj_succ, N2Nat.id, N.pow_succ_r'. pose proof (N.size_gt n). lia.
  - repeat split; auto. apply C. lia.
Qed.

Lemma read_line_digits s : forallb is_digit s = true -> read_line s = (s, length s).
Proof.
  induction s as [|b s IH]; intros H; [reflexivity|]. cbn [forallb] in H. apply andb_true_iff in H as [H1 H2].
  cbn [read_line]. unfold is_digit in H1.
  replace (N_of_byte b =? 10)%N with false by lia. rewrite IH by exact H2.
  replace (N_of_byte b =? 13)%N with false by lia. reflexivity.
Qed.

Lemma strtoull_digits s : forallb is_digit s = true -> s <> [] ->
  strtoull s = if (digits_val s 0 <? 2^64)%N then digits_val s 0 else (2^64 - 1)%N.
Proof.
  intros H N. destruct s as [|b s]; [contradiction|]. pose proof H as H'.
  cbn [forallb] in H. apply andb_true_iff in H as [H1 _].
  unfold strtoull. cbn [skip_space]. unfold is_digit in H1. unfold is_space.
  replace ((N_of_byte b =? 32) || (9 <=? N_of_byte b) && (N_of_byte b <=? 13))%N with false by lia.
  replace (N_of_byte b =? 43)%N with false by lia. replace (N_of_byte b =? 45)%N with false by lia.
  reflexivity.
Qed.

Lemma id_round_trip n : (n < 2^64)%N -> id_from_string (to_string n) = n.
Proof.
  intros Hn. destruct (to_string_spec n) as (A & B & C).
  unfold id_from_string. destruct (to_string n) as [|b s] eqn:E; [contradiction|].
  rewrite strtoull_digits by (auto; discriminate). rewrite A.
  replace (n <? 2^64)%N with true by (symmetry; apply N.ltb_lt; exact Hn). reflexivity.
Qed.

Lemma fix_content f n : wcontent (fix_wal_id f n) = to_string n.
Proof. unfold fix_wal_id, write_at0. cbn [wcontent]. apply firstn_len. Qed.

Lemma fix_read_fresh f n : (n < 2^64)%N -> fst (read_wal_id (open_wid (wcontent (fix_wal_id f n)))) = n.
Proof.
  intros Hn. rewrite fix_content. unfold read_wal_id, open_wid. cbn [wcontent wpos skipn].
  destruct (to_string_spec n) as (_ & B & _). rewrite read_line_digits by exact B. cbn [fst].
  apply id_round_trip. exact Hn.
Qed.

Lemma fixes_read ids n c0 : (n < 2^64)%N ->
  fst (read_wal_id (open_wid (wcontent (fold_left fix_wal_id (ids ++ [n]) (open_wid c0))))) = n.
Proof.
  intros Hn. rewrite fold_left_app. cbn [fold_left]. apply fix_read_fresh. exact Hn.
Qed.

Lemma dec_digits_fuel fuel fuel' n : (n < 2 ^ N.of_nat fuel)%N -> (n < 2 ^ N.of_nat fuel')%N ->
  (0 < fuel)%nat -> (0 < fuel')%nat -> dec_digits fuel n [] = dec_digits fuel' n [].
Proof.
  revert fuel' n. induction fuel as [|f IH]; intros fuel' n H H' P P'; [lia|].
  destruct fuel' as [|f']; [lia|]. cbn [dec_digits]. destruct (N.ltb_spec n 10); [reflexivity|].
  rewrite Nat2N.inj_succ, N.pow_succ_r' in H, H'.
  rewrite dec_digits_app, (dec_digits_app f').
  f_equal. apply IH; try lia.
  - destruct f; [cbn in H; lia|lia].
  - destruct f'; [cbn in H'; lia|lia].
Qed.

Lemma dec_length_mono fuel : forall n m, (n <= m)%N -> (m < 2 ^ N.of_nat fuel)%N ->
  (length (dec_digits fuel n []) <= length (dec_digits fuel m []))%nat.
Proof.
  induction fuel as [|f IH]; intros n m Hnm Hm; [cbn; lia|]. cbn [dec_digits].
  destruct (N.ltb_spec n 10), (N.ltb_spec m 10); cbn [length]; try lia.
  - rewrite dec_digits_app, app_length. cbn. lia.
  - rewrite dec_digits_app, (dec_digits_app f (m / 10)), !app_length. cbn [length].
    apply Nat.add_le_mono_r. apply IH; [apply N.div_le_mono; lia|].
    rewrite Nat2N.inj_succ, N.pow_succ_r' in Hm. lia.
Qed.

Lemma to_string_mono n m : (n <= m)%N -> (length (to_string n) <= length (to_string m))%nat.
Proof.
  intros H. unfold to_string.
  assert (Hm : (m < 2 ^ N.of_nat (S (N.to_nat (N.size m))))%N).
  { rewrite Nat2N.inj_succ, N2Nat.id, N.pow_succ_r'. pose proof (N.size_gt m). lia. }
  assert (Hn : (n < 2 ^ N.of_nat (S (N.to_nat (N.size n))))%N).
  { rewrite Nat2N.inj_succ, N2Nat.id, N.pow_succ_r'. pose proof (N.size_gt n). lia. }
  rewrite (dec_digits_fuel _ (S (N.to_nat (N.size m))) n) by lia.
  apply dec_length_mono; assumption.
Qed.

(** a crash after the write and before the truncate *)
Lemma crash_before_truncate old new : (old <= new)%N -> (new < 2^64)%N ->
  fst (read_wal_id (open_wid (write_at0 (to_string old) (to_string new)))) = new.
Proof.
  intros H Hn. unfold write_at0. rewrite skipn_all2 by (apply to_string_mono; exact H). rewrite app_nil_r.
  rewrite <- (fix_content (open_wid []) new). apply fix_read_fresh. exact Hn.
Qed.

Lemma rewrite_longer ops l old : Permutation l (meta_run ops) -> names_ok (meta_run ops) = true ->
  (length old <= length (render l))%nat ->
  open_meta (write_at0 old (render l)) = Ok (meta_run ops).
Proof.
  intros HP Hok HL. unfold write_at0. rewrite skipn_all2 by exact HL. rewrite app_nil_r.
  apply meta_round_trip; auto.
Qed.

Lemma erase_insert {V} d (v : V) m : bsorted m -> berase d (binsert d v m) = berase d m.
Proof.
  intros H. apply (msorted_ext _ bcmp_eq bcmp_sym); auto using bsorted_erase, bsorted_insert.
  intros k. rewrite !bfind_erase by auto using bsorted_insert. rewrite bfind_insert.
  destruct (beqb k d); reflexivity.
Qed.

Lemma disk_drop_small ops db : (length (collections (meta_run ops) db) <= 1)%nat ->
  exists m', disk_drop_db (meta_run ops) db = Ok (m', has_db (cat_run ops) db) /\
             lists m' (cat_run (ops ++ [DropDb db])).
Proof.
  intros H. pose proof (R_run ops) as HR.
  exists (fst (remove_database (meta_run ops) db)). split.
  - unfold disk_drop_db. destruct (collections (meta_run ops) db) as [|c [|c2 l]] eqn:E; cbn in H; try lia.
    + unfold remove_database. rewrite (R_db _ _ _ HR). reflexivity.
    + unfold collections in E. destruct (bfind db (meta_run ops)) as [l|] eqn:F; [|discriminate].
      rewrite E in F. unfold remove_collection. rewrite F.
      cbn [filter]. rewrite beqb_refl. cbn [negb length Nat.ltb Nat.leb fst].
      unfold remove_database. cbn [fst].
      rewrite erase_insert by apply HR. f_equal. f_equal. unfold is_exists_database, mmem. rewrite bfind_insert, beqb_refl.
      destruct HR as [_ HR]. specialize (HR db). rewrite F in HR. symmetry. apply HR.
  - unfold cat_run. rewrite fold_left_app. cbn [fold_left]. apply R_lists.
    apply (R_step _ _ (DropDb db) HR).
Qed.
