From Verif Require Import Bytes Outcome ByteOrd StmtModel IxMetaModel IxMetaSpec IxMetaProofs IxMetaProofs2.
From Coq Require Import Lia ZifyBool ZifyN ZifyNat.
Local Open Scope N_scope.

(** The file holds each index, the first time in the order of their creation. *)
Definition Rel (F G : list def) : Prop := G = firsts F /\ forall d e, In d F -> In e F -> dname d = dname e -> d = e.

Lemma rel_in F G d : Rel F G -> (In d F <-> In d G).
Proof.
  intros [-> S]. split.
  - intros H. pose proof (fold_add_has F [] d H) as Q. apply has_name in Q as (e & He & En). fold (firsts F) in He.
    assert (In e F) as He' by (destruct (fold_add_in F [] e He) as [[]|X]; exact X). rewrite (S d e H He' (eq_sym En)). exact He.
  - intros H. destruct (fold_add_in F [] d H) as [[]|X]; exact X.
Qed.
Lemma rel_snoc F G d : Rel F G -> existsb (named (dname d)) G = false -> Rel (F ++ [d]) (G ++ [d]).
Proof.
  intros R N. pose proof R as [E S]. split.
  - rewrite firsts_snoc, <- E. unfold add. rewrite N. reflexivity.
  - intros a b Ha Hb Q. apply in_app_iff in Ha as [Ha|[<-|[]]], Hb as [Hb|[<-|[]]].
    + apply S; assumption.
    + exfalso. apply (rel_in F G a R) in Ha. exact (has_name_no _ _ N a Ha Q).
    + exfalso. apply (rel_in F G b R) in Hb. exact (has_name_no _ _ N b Hb (eq_sym Q)).
    + reflexivity.
Qed.
Lemma rel_filter F G n : Rel F G -> Rel (filter (fun d => negb (named n d)) F) (filter (fun d => negb (named n d)) G).
Proof.
  intros [-> S]. split.
  - unfold firsts. rewrite <- fold_add_filter. reflexivity.
  - intros a b Ha Hb. apply filter_In in Ha as [Ha _], Hb as [Hb _]. apply S; assumption.
Qed.
Lemma rel_again F G : Rel F G -> Rel (F ++ G) G.
Proof.
  intros R. pose proof R as [E S]. split.
  - unfold firsts. rewrite fold_left_app. fold (firsts F). rewrite <- E. symmetry. apply fold_add_known. intros d H. apply has_name. eauto.
  - intros a b Ha Hb. assert (X : forall z, In z (F ++ G) -> In z F) by (intros z Hz; apply in_app_iff in Hz as [Hz|Hz]; [exact Hz|apply (rel_in F G z R), Hz]). apply S; apply X; assumption.
Qed.

Lemma inv_more s cs G T T' F : incl T T' -> Inv s cs G T F -> Inv s cs G T' F.
Proof.
  intros H I. destruct I as [a b c d e f g h i j k]. constructor; try assumption.
  - intros x Hx. destruct (i x Hx) as (A & B & C). auto.
  - intros n x Hx. destruct (k n x Hx) as (c' & y & A & B & C). exists c', y. auto.
Qed.

Lemma agents_kept s s1 cs G T F c : Inv s cs G T F -> ~ In (snd c) T -> contexts s1 = filter (fun p => negb (full_eqb (fst p) c)) (contexts s) ->
  forall l, incl l (agents s) -> drop_agents s1 (snd c) l = Ok (l, false).
Proof.
  intros I NT E l. induction l as [|[n a] l IH]; intros Hl; [reflexivity|]. cbn [drop_agents].
  destruct (i_agents _ _ _ _ _ I n a (Hl _ (or_introl eq_refl))) as (c' & x & Hx & Ax & Tx).
  assert (In (c', x) (contexts s1)) as Hx1. { rewrite E. apply filter_In. split; [exact Hx|]. cbn [fst]. rewrite full_eqb_neq; [reflexivity|]. intros ->. contradiction. }
  assert (collection_name s1 a = Ok (snd c')) as ->.
  { unfold collection_name. destruct (find (fun p => (addr (snd p) =? pointer a)%nat) (contexts s1)) as [[c2 x2]|] eqn:Fd.
    - apply find_some in Fd as [F1 F2]. cbn [fst snd] in *. apply Nat.eqb_eq in F2. rewrite E in F1. apply filter_In in F1 as [F1 _].
      assert ((c2, x2) = (c', x)) as Q; [|injection Q as -> _; reflexivity]. pose proof (i_addr _ _ _ _ _ I) as Nd. clear -Nd F1 F2 Hx Ax. revert Nd F1 Hx. generalize (contexts s).
      intros L. induction L as [|[k z] L IH]; intros Nd A B; [destruct A|]. cbn [map snd] in Nd. inversion Nd as [|? ? NI N']; subst. destruct A as [A|A], B as [B|B].
      + congruence.
      + exfalso. injection A as -> ->. apply NI. rewrite F2, <- Ax. change (addr x) with ((fun p : list byte * list byte * context => addr (snd p)) (c', x)). apply in_map, B.
      + exfalso. injection B as -> ->. apply NI. rewrite Ax, <- F2. change (addr x2) with ((fun p : list byte * list byte * context => addr (snd p)) (c2, x2)). apply in_map, A.
      + apply IH; assumption.
    - exfalso. pose proof (find_none _ _ Fd _ Hx1) as Q. cbn [snd] in Q. rewrite Ax, Nat.eqb_refl in Q. discriminate. }
  cbn [rbind]. rewrite IH by (intros z Hz; apply Hl; right; exact Hz). cbn [rbind]. rewrite beqb_neq; [reflexivity|]. intros Q. rewrite Q in Tx. contradiction.
Qed.
Lemma filter_true {A} (f : A -> bool) l : (forall x, In x l -> f x = true) -> filter f l = l.
Proof. induction l as [|a l IH]; intros H; [reflexivity|]. cbn [filter]. rewrite (H a (or_introl eq_refl)), IH by (intros x Hx; apply H; right; exact Hx). reflexivity. Qed.
Lemma NoDup_filter2 {A} (f : A -> bool) l : NoDup l -> NoDup (filter f l).
Proof. intros H. rewrite <- (map_id (filter f l)). apply NoDup_map_filter. rewrite map_id. exact H. Qed.
Lemma NoDup_snoc {A} (l : list A) a : NoDup l -> ~ In a l -> NoDup (l ++ [a]).
Proof.
  intros H N. apply (@NoDup_incl_NoDup _ (a :: l)); [constructor; assumption|rewrite app_length; cbn; lia|]. intros z [<-|Hz]; apply in_app_iff; [right; left; reflexivity|left; exact Hz].
Qed.

Lemma drop_coll s cs G T F c : Inv s cs G T F -> In c cs -> ~ In (snd c) T ->
  exists s', drop_collection s c = Ok (s', Done) /\ Inv s' (filter (fun x => negb (full_eqb x c)) cs) G T F /\ filter (fun d => negb (of_coll c d)) G = G.
Proof.
  intros I C NT. destruct (context_some _ _ _ _ _ c I C) as (x & Hx & Ix). unfold drop_collection. rewrite Hx. cbv zeta. set (s1 := {| contexts := _; agents := _; file := _; next := _ |}).
  rewrite (agents_kept s s1 cs G T F c I NT eq_refl (agents s) (incl_refl _)). cbn [rbind]. exists s1. split; [reflexivity|].
  assert (Gc : forall d, In d G -> full_of (dcoll d) <> c). { intros d Hd Q. destruct (i_G _ _ _ _ _ I d Hd) as (_ & _ & HT). apply NT. rewrite <- Q. exact HT. }
  split.
  - constructor.
    + exact (i_file _ _ _ _ _ I).
    + exact (i_F _ _ _ _ _ I).
    + rewrite <- (i_cs _ _ _ _ _ I). cbn [contexts s1]. generalize (contexts s). intros L. induction L as [|[k z] L IH]; [reflexivity|]. cbn [filter map fst]. destruct (full_eqb k c); cbn [negb]; [exact IH|]. cbn [map fst]. rewrite IH. reflexivity.
    + apply NoDup_filter2. exact (i_nd _ _ _ _ _ I).
    + intros c' y Hy. cbn [contexts s1] in Hy. apply filter_In in Hy as [Hy _]. exact (i_ix _ _ _ _ _ I _ _ Hy).
    + apply NoDup_map_filter. exact (i_addr _ _ _ _ _ I).
    + intros c' y Hy. cbn [contexts s1] in Hy. apply filter_In in Hy as [Hy _]. exact (i_next _ _ _ _ _ I _ _ Hy).
    + exact (i_names _ _ _ _ _ I).
    + intros d Hd. destruct (i_G _ _ _ _ _ I d Hd) as (A & B & D). split; [exact A|]. split; [|exact D]. apply filter_In. split; [exact B|]. rewrite full_eqb_neq by exact (Gc d Hd). reflexivity.
    + exact (i_live _ _ _ _ _ I).
    + intros n a Ha. destruct (i_agents _ _ _ _ _ I n a Ha) as (c' & y & A & B & D). exists c', y. split; [|split; assumption]. cbn [contexts s1]. apply filter_In. split; [exact A|]. cbn [fst].
      rewrite full_eqb_neq; [reflexivity|]. intros ->. contradiction.
  - apply filter_true. intros d Hd. unfold of_coll. rewrite full_eqb_neq by exact (Gc d Hd). reflexivity.
Qed.

Lemma create_coll s cs G T F c : Inv s cs G T F -> ~ In c cs -> exists s', create_collection s c = (s', Done) /\ Inv s' (cs ++ [c]) G T F.
Proof.
  intros I C. unfold create_collection. rewrite (context_none _ _ _ _ _ c I C). eexists. split; [reflexivity|].
  constructor; cbn [contexts agents file next].
  - exact (i_file _ _ _ _ _ I).
  - exact (i_F _ _ _ _ _ I).
  - rewrite map_app, (i_cs _ _ _ _ _ I). reflexivity.
  - apply NoDup_snoc; [exact (i_nd _ _ _ _ _ I)|exact C].
  - intros c' y Hy. apply in_app_iff in Hy as [Hy|[Hy|[]]]; [exact (i_ix _ _ _ _ _ I _ _ Hy)|]. injection Hy as <- <-. cbn [indexes].
    replace (filter (of_coll c) G) with (@nil def); [reflexivity|]. symmetry. destruct (filter (of_coll c) G) as [|d l] eqn:Q; [reflexivity|]. exfalso.
    assert (In d (filter (of_coll c) G)) as Hd by (rewrite Q; left; reflexivity). apply filter_In in Hd as [Hd E]. apply full_eqb_eq in E. destruct (i_G _ _ _ _ _ I d Hd) as (_ & B & _). rewrite E in B. contradiction.
  - rewrite map_app. cbn [map snd addr]. apply NoDup_snoc; [exact (i_addr _ _ _ _ _ I)|]. intros Q. apply in_map_iff in Q as ([k y] & E & Hy). pose proof (i_next _ _ _ _ _ I k y Hy). cbn [snd] in E. lia.
  - intros c' y Hy. apply in_app_iff in Hy as [Hy|[Hy|[]]]; [pose proof (i_next _ _ _ _ _ I _ _ Hy); lia|]. injection Hy as <- <-. cbn [addr]. lia.
  - exact (i_names _ _ _ _ _ I).
  - intros d Hd. destruct (i_G _ _ _ _ _ I d Hd) as (A & B & D). split; [exact A|]. split; [apply in_app_iff; left; exact B|exact D].
  - exact (i_live _ _ _ _ _ I).
  - intros n a Ha. destruct (i_agents _ _ _ _ _ I n a Ha) as (c' & y & A & B & D). exists c', y. split; [apply in_app_iff; left; exact A|auto].
Qed.

(** * The start *)
Lemma load_all cs T R : forall s G0 F0, Inv s cs G0 T F0 ->
  (forall d, In d R -> In (full_of (dcoll d)) cs /\ dtype d = 0 /\ IxMetaSpec.def_ok d = true /\ In (collection (dcoll d)) T) ->
  (forall d e, In d (G0 ++ R) -> In e (G0 ++ R) -> dname d = dname e -> d = e) ->
  exists K s', fold_left add R G0 = G0 ++ K /\ load_indexes s R = Ok s' /\ Inv s' cs (G0 ++ K) T (F0 ++ K).
Proof.
  induction R as [|d R IH]; intros s G0 F0 I H S.
  - exists [], s. rewrite !app_nil_r. auto.
  - destruct (H d (or_introl eq_refl)) as (Hc & Ty & Od & HT). cbn [fold_left load_indexes]. unfold add at 2. destruct (existsb (named (dname d)) G0) eqn:N.
    + rewrite (create_known s cs G0 T F0 d I Hc Ty N).
      2:{ intros e He En. rewrite (S e d); [reflexivity|apply in_app_iff; left; exact He|apply in_app_iff; right; left; reflexivity|exact En]. }
      cbn [rbind]. apply IH; [exact I|intros e He; apply H; right; exact He|]. intros a b Ha Hb. apply S; apply in_app_iff; [apply in_app_iff in Ha as [Ha|Ha]|apply in_app_iff in Hb as [Hb|Hb]]; cbn [In]; tauto.
    + destruct (create_fresh s cs G0 T F0 d I Hc Ty Od N HT) as (s1 & E1 & I1). rewrite E1. cbn [rbind].
      destruct (IH s1 (G0 ++ [d]) (F0 ++ [d]) I1) as (K & s' & A & B & C).
      * intros e He. apply H. right. exact He.
      * intros a b Ha Hb. rewrite <- app_assoc in Ha, Hb. apply S; assumption.
      * exists (d :: K), s'. rewrite A, B. rewrite <- !app_assoc in *. cbn [app] in *. auto.
Qed.

Lemma load_fst l : forall a, map fst (load_contexts l a) = map fst l.
Proof. induction l as [|[c x] l IH]; intros a; [reflexivity|]. cbn [load_contexts map fst]. rewrite IH. reflexivity. Qed.
Lemma load_in l : forall a c x, In (c, x) (load_contexts l a) -> indexes x = [] /\ (a <= addr x < a + length l)%nat.
Proof.
  induction l as [|[k z] l IH]; intros a c x H; [destruct H|]. cbn [load_contexts] in H. destruct H as [H|H].
  - injection H as <- <-. cbn. split; [reflexivity|lia].
  - apply IH in H as [A B]. split; [exact A|cbn [length]; lia].
Qed.
Lemma load_addr l : forall a, NoDup (map (fun p => addr (snd p)) (load_contexts l a)).
Proof.
  induction l as [|[k z] l IH]; intros a; [constructor|]. cbn [load_contexts map snd addr]. constructor; [|apply IH]. intros Q. apply in_map_iff in Q as ([c x] & E & H). apply load_in in H. cbn [snd] in E. lia.
Qed.

Lemma restart_inv s cs G T F : Inv s cs G T F -> Rel F G ->
  exists s', restart s = Ok s' /\ Inv s' cs G (map (fun d => collection (dcoll d)) G) (F ++ G).
Proof.
  intros I R. unfold restart. rewrite (i_file _ _ _ _ _ I), read_file_recs by exact (i_F _ _ _ _ _ I). cbn [rbind]. set (s0 := {| contexts := _; agents := _; file := _; next := _ |}).
  set (T0 := map (fun d => collection (dcoll d)) G).
  assert (I0 : Inv s0 cs [] T0 F).
  { constructor; cbn [contexts agents file next s0].
    - reflexivity.
    - exact (i_F _ _ _ _ _ I).
    - rewrite load_fst. exact (i_cs _ _ _ _ _ I).
    - exact (i_nd _ _ _ _ _ I).
    - intros c x H. apply load_in in H as [H _]. exact H.
    - apply load_addr.
    - intros c x H. apply load_in in H. lia.
    - constructor.
    - intros d [].
    - intros n. cbn [existsb]. split; [discriminate|]. intros (a & A & _). unfold agent_of in A. cbn in A. discriminate A.
    - intros n a []. }
  destruct (load_all cs T0 F s0 [] F I0) as (K & s' & A & B & C).
  - intros d Hd. pose proof (i_F _ _ _ _ _ I) as O. rewrite Forall_forall in O. pose proof (proj1 (rel_in F G d R) Hd) as Hg. destruct (i_G _ _ _ _ _ I d Hg) as (X & Y & _).
    split; [exact Y|]. split; [exact X|]. split; [exact (O d Hd)|]. unfold T0. apply (in_map (fun d => collection (dcoll d))), Hg.
  - exact (proj2 R).
  - exists s'. split; [exact B|]. cbn [app] in *. replace K with G in C; [exact C|]. rewrite (proj1 R). exact A.
Qed.

(** * Every statement *)
Lemma step_inv s v F o : Inv s (vcolls v) (vindexes v) (vtouched v) F -> Rel F (vindexes v) -> fair_op v o = true ->
  exists s' F', step s o = Ok (s', snd (expect v o)) /\ Inv s' (vcolls (fst (expect v o))) (vindexes (fst (expect v o))) (vtouched (fst (expect v o))) F' /\
    Rel F' (vindexes (fst (expect v o))) /\ match o with Restart => F' = F ++ vindexes v | _ => F = vindexes v -> F' = vindexes (fst (expect v o)) end.
Proof.
  intros I R Fr. destruct o as [c|c|d|c n|]; cbn [step expect].
  - destruct (there v c) eqn:Th.
    + apply there_in in Th. destruct (context_some _ _ _ _ _ c I Th) as (x & Hx & _). unfold create_collection. rewrite Hx. exists s, F. cbn [fst snd]. auto.
    + destruct (create_coll s _ _ _ F c I) as (s' & E & I'). { intros Q. apply there_in in Q. congruence. }
      rewrite E. exists s', F. cbn [fst snd vcolls vindexes vtouched]. auto.
  - cbn [fair_op] in Fr. destruct (there v c) eqn:Th.
    + cbn [andb] in Fr. destruct (drop_coll s _ _ _ F c I) as (s' & E & I' & Eg).
      { apply there_in, Th. }
      { intros Q. rewrite negb_true_iff in Fr. assert (existsb (beqb (snd c)) (vtouched v) = true); [|congruence]. apply existsb_exists. exists (snd c). split; [exact Q|apply beqb_refl2]. }
      exists s', F. cbn [fst snd vcolls vindexes vtouched]. rewrite Eg. auto.
    + unfold drop_collection. rewrite (context_none _ _ _ _ _ c I) by (intros Q; apply there_in in Q; congruence). exists s, F. cbn [fst snd]. auto.
  - cbn [fair_op] in Fr. apply andb_true_iff in Fr as [Od Ot]. destruct (there v (full_of (dcoll d))) eqn:Th; cbn [negb].
    2:{ unfold create_index. rewrite (context_none _ _ _ _ _ (full_of (dcoll d)) I) by (intros Q; apply there_in in Q; congruence). exists s, F. cbn [fst snd]. auto. }
    apply there_in in Th. destruct (dtype d =? 0) eqn:Ty; cbn [negb].
    2:{ destruct (context_some _ _ _ _ _ _ I Th) as (x & Hx & _). unfold create_index. rewrite Hx, Ty. cbn [negb]. exists s, F. cbn [fst snd]. auto. }
    apply N.eqb_eq in Ty. destruct (existsb (named (dname d)) (vindexes v)) eqn:N.
    + rewrite (create_known s _ _ _ F d I Th Ty N).
      2:{ intros e He En. apply full_eqb_eq. destruct (full_eqb (full_of (dcoll e)) (full_of (dcoll d))) eqn:Q; [reflexivity|]. rewrite negb_true_iff in Ot.
          assert (existsb (fun e0 => named (dname d) e0 && negb (of_coll (full_of (dcoll d)) e0)) (vindexes v) = true); [|congruence].
          apply existsb_exists. exists e. split; [exact He|]. apply andb_true_iff. split; [apply named_eq; exact En|]. unfold of_coll. rewrite Q. reflexivity. }
      exists s, F. cbn [fst snd]. auto.
    + destruct (create_fresh s (vcolls v) (vindexes v) (collection (dcoll d) :: vtouched v) F d) as (s' & E & I').
      * apply (inv_more _ _ _ (vtouched v)); [|exact I]. intros z Hz. right. exact Hz.
      * exact Th.
      * exact Ty.
      * exact Od.
      * exact N.
      * left. reflexivity.
      * exists s', (F ++ [d]). cbn [fst snd vcolls vindexes vtouched]. split; [exact E|]. split; [exact I'|]. split; [apply rel_snoc; assumption|]. intros ->. reflexivity.
  - destruct (existsb (fun d => of_coll c d && named n d) (vindexes v)) eqn:Ex.
    + apply existsb_exists in Ex as (d & Hd & Q). apply andb_true_iff in Q as [Q1 Q2]. apply full_eqb_eq in Q1. apply named_eq in Q2. subst c n.
      destruct (drop_one s _ _ _ F d I Hd) as (s' & E & I'). exists s', (filter (fun e => negb (named (dname d) e)) F). cbn [fst snd vcolls vindexes vtouched].
      assert (EQ : filter (fun e => negb (of_coll (full_of (dcoll d)) e && named (dname d) e)) (vindexes v) = filter (fun e => negb (named (dname d) e)) (vindexes v)).
      { apply filter_ext_in. intros e He. destruct (named (dname d) e) eqn:Q; [|rewrite andb_false_r; reflexivity]. apply named_eq in Q. rewrite (same_name _ e d (i_names _ _ _ _ _ I) He Hd Q). unfold of_coll. rewrite full_eqb_refl. reflexivity. }
      rewrite EQ. split; [exact E|]. split; [exact I'|]. split; [apply rel_filter, R|]. intros ->. reflexivity.
    + assert (drop_index s c n = Ok (s, Refused)) as ->; [|exists s, F; cbn [fst snd]; auto]. unfold drop_index. destruct (context_of s c) as [x|] eqn:Hx; [|reflexivity].
      apply (context_in _ _ _ _ _ c x I) in Hx. unfold index_of. rewrite (i_ix _ _ _ _ _ I c x Hx), index_find. rewrite find_none_all; [reflexivity|]. intros e He. apply filter_In in He as [He Hc].
      destruct (named n e) eqn:Q; [|reflexivity]. assert (existsb (fun d => of_coll c d && named n d) (vindexes v) = true); [|congruence]. apply existsb_exists. exists e. rewrite Hc, Q. auto.
  - destruct (restart_inv s _ _ _ F I R) as (s' & E & I'). rewrite E. cbn [rbind]. exists s', (F ++ vindexes v). cbn [fst snd vcolls vindexes vtouched]. split; [reflexivity|]. split; [exact I'|]. split; [apply rel_again, R|reflexivity].
Qed.

Lemma start_inv : Inv start [] [] [] [].
Proof.
  constructor; cbn; try constructor; try (intros; contradiction).
  - discriminate.
  - intros (a & A & _). discriminate A.
Qed.

Lemma run_inv l : forall s v F, Inv s (vcolls v) (vindexes v) (vtouched v) F -> Rel F (vindexes v) -> fair v l = true ->
  exists s' F', run s l = Ok (s', snd (expect_all v l)) /\ Inv s' (vcolls (fst (expect_all v l))) (vindexes (fst (expect_all v l))) (vtouched (fst (expect_all v l))) F' /\
    Rel F' (vindexes (fst (expect_all v l))) /\ (no_start l = true -> F = vindexes v -> F' = vindexes (fst (expect_all v l))).
Proof.
  induction l as [|o l IH]; intros s v F I R Fr.
  - exists s, F. cbn [run expect_all fst snd]. auto.
  - cbn [fair] in Fr. apply andb_true_iff in Fr as [F1 F2]. destruct (step_inv s v F o I R F1) as (s1 & Fa & E1 & I1 & R1 & K1).
    destruct (IH s1 (fst (expect v o)) Fa I1 R1 F2) as (s2 & Fb & E2 & I2 & R2 & K2). exists s2, Fb. cbn [run expect_all]. rewrite E1. cbn [rbind]. rewrite E2. cbn [rbind].
    destruct (expect v o) as [v1 a] eqn:X. cbn [fst snd] in *. destruct (expect_all v1 l) as [v2 rest] eqn:Y. cbn [fst snd] in *. split; [reflexivity|]. split; [exact I2|]. split; [exact R2|].
    intros Ns Ef. unfold no_start in Ns. cbn [forallb] in Ns. apply andb_true_iff in Ns as [N1 N2]. apply (K2 N2). destruct o; try discriminate N1; apply K1, Ef.
Qed.

Lemma seen_inv s v F c : Inv s (vcolls v) (vindexes v) (vtouched v) F -> seen s c = expected v c.
Proof.
  intros I. unfold seen, expected. destruct (there v c) eqn:Th.
  - apply there_in in Th. destruct (context_some _ _ _ _ _ c I Th) as (x & Hx & Ix). rewrite Hx, (i_ix _ _ _ _ _ I c x Ix), map_map. reflexivity.
  - rewrite (context_none _ _ _ _ _ c I) by (intros Q; apply there_in in Q; congruence). reflexivity.
Qed.

Theorem indexes_kept l : fair nothing l = true ->
  exists s, run start l = Ok (s, snd (expect_all nothing l)) /\ forall c, seen s c = expected (fst (expect_all nothing l)) c.
Proof.
  intros Fr. destruct (run_inv l start nothing [] start_inv (conj eq_refl (fun d e (H : In d []) => match H with end)) Fr) as (s & F & E & I & _). exists s. split; [exact E|]. intros c. exact (seen_inv _ _ _ c I).
Qed.
Theorem file_exact l : fair nothing l = true -> no_start l = true ->
  exists s, run start l = Ok (s, snd (expect_all nothing l)) /\ read_file (file s) = Ok (vindexes (fst (expect_all nothing l))).
Proof.
  intros Fr Ns. destruct (run_inv l start nothing [] start_inv (conj eq_refl (fun d e (H : In d []) => match H with end)) Fr) as (s & F & E & I & _ & K). exists s. split; [exact E|].
  rewrite (i_file _ _ _ _ _ I), read_file_recs by exact (i_F _ _ _ _ _ I). rewrite (K Ns eq_refl). reflexivity.
Qed.

Lemma run_app l m : forall s s' a, run s l = Ok (s', a) -> run s (l ++ m) = (do '(s'', b) <- run s' m; Ok (s'', a ++ b)).
Proof.
  induction l as [|o l IH]; intros s s' a H; cbn [run app] in *.
  - injection H as <- <-. destruct (run s m) as [[x y]|]; reflexivity.
  - destruct (step s o) as [[s1 x]|]; [|discriminate H]. cbn [rbind] in *. destruct (run s1 l) as [[s2 y]|] eqn:E; [|discriminate H]. cbn [rbind] in H. injection H as <- <-.
    rewrite (IH s1 s2 y E). destruct (run s2 m) as [[s3 z]|]; reflexivity.
Qed.
Lemma starts_inv k : forall s v F, Inv s (vcolls v) (vindexes v) (vtouched v) F -> Rel F (vindexes v) ->
  exists s' v', run s (repeat Restart k) = Ok (s', repeat Done k) /\ vcolls v' = vcolls v /\ vindexes v' = vindexes v /\
    Inv s' (vcolls v') (vindexes v') (vtouched v') (F ++ concat (repeat (vindexes v) k)).
Proof.
  induction k as [|k IH]; intros s v F I R.
  - exists s, v. cbn. rewrite app_nil_r. auto.
  - cbn [repeat run concat]. destruct (step_inv s v F Restart I R eq_refl) as (s1 & F1 & E1 & I1 & R1 & ->). rewrite E1. cbn [rbind]. destruct (IH s1 _ _ I1 R1) as (s2 & v2 & E2 & A & B & I2). rewrite E2. cbn [rbind].
    exists s2, v2. split; [reflexivity|]. split; [exact A|]. split; [exact B|]. cbn [expect fst vindexes] in I2. rewrite <- app_assoc in I2. exact I2.
Qed.
Theorem file_grows l k : fair nothing l = true -> no_start l = true ->
  exists s, run start (l ++ repeat Restart k) = Ok (s, snd (expect_all nothing l) ++ repeat Done k) /\
    read_file (file s) = Ok (concat (repeat (vindexes (fst (expect_all nothing l))) (S k))) /\ forall c, seen s c = expected (fst (expect_all nothing l)) c.
Proof.
  intros Fr Ns. destruct (run_inv l start nothing [] start_inv (conj eq_refl (fun d e (H : In d []) => match H with end)) Fr) as (s & F & E & I & R & K). specialize (K Ns eq_refl). subst F.
  destruct (starts_inv k s _ _ I R) as (s' & v' & E' & A & B & I'). exists s'. rewrite (run_app _ _ _ _ _ E), E'. cbn [rbind]. split; [reflexivity|]. split.
  - rewrite (i_file _ _ _ _ _ I'), read_file_recs by exact (i_F _ _ _ _ _ I'). reflexivity.
  - intros c. rewrite (seen_inv _ _ _ c I'). unfold expected, there. rewrite A, B. reflexivity.
Qed.
