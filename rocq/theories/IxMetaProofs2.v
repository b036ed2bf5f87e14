From Verif Require Import Bytes Outcome ByteOrd StmtModel IxMetaModel IxMetaSpec IxMetaProofs.
From Coq Require Import Lia ZifyBool ZifyN ZifyNat.
Local Open Scope N_scope.

Lemma full_eqb_eq a b : full_eqb a b = true <-> a = b.
Proof.
  unfold full_eqb. rewrite andb_true_iff, !beqb_eq. destruct a, b. cbn. split; [intros [-> ->]; reflexivity|intros H; injection H; auto].
Qed.
Lemma full_eqb_refl a : full_eqb a a = true. Proof. apply full_eqb_eq. reflexivity. Qed.
Lemma full_eqb_neq a b : a <> b -> full_eqb a b = false.
Proof. intros H. destruct (full_eqb a b) eqn:E; [|reflexivity]. apply full_eqb_eq in E. contradiction. Qed.
Lemma named_eq n d : named n d = true <-> dname d = n. Proof. unfold named. apply beqb_eq. Qed.
Lemma beqb_refl2 n : beqb n n = true. Proof. apply beqb_eq. reflexivity. Qed.
Lemma beqb_neq a b : a <> b -> beqb a b = false.
Proof. intros H. destruct (beqb a b) eqn:E; [|reflexivity]. apply beqb_eq in E. contradiction. Qed.
Lemma has_name n (l : list def) : existsb (named n) l = true <-> exists d, In d l /\ dname d = n.
Proof. rewrite existsb_exists. split; intros (d & I & E); exists d; (split; [exact I|]); apply named_eq; exact E. Qed.
Lemma has_name_no n (l : list def) : existsb (named n) l = false -> forall d, In d l -> dname d <> n.
Proof. intros H d I E. assert (T : existsb (named n) l = true) by (apply has_name; eauto). congruence. Qed.
Lemma there_in v c : there v c = true <-> In c (vcolls v).
Proof. unfold there. rewrite existsb_exists. split; [intros (x & I & E); apply full_eqb_eq in E; subst; exact I|intros I; exists c; split; [exact I|apply full_eqb_refl]]. Qed.

(** * The first definition of each name *)
Definition add (acc : list def) (d : def) : list def := if existsb (named (dname d)) acc then acc else acc ++ [d].
Definition firsts (l : list def) : list def := fold_left add l [].

Lemma firsts_snoc l d : firsts (l ++ [d]) = add (firsts l) d. Proof. unfold firsts. rewrite fold_left_app. reflexivity. Qed.
Lemma fold_add_known l : forall acc, (forall d, In d l -> existsb (named (dname d)) acc = true) -> fold_left add l acc = acc.
Proof.
  induction l as [|d l IH]; intros acc H; [reflexivity|]. cbn [fold_left]. unfold add at 2. rewrite (H d (or_introl eq_refl)). apply IH. intros e I. apply H. right. exact I.
Qed.
Lemma existsb_filter n m acc : n <> m -> existsb (named n) (filter (fun d => negb (named m d)) acc) = existsb (named n) acc.
Proof.
  intros H. induction acc as [|d acc IH]; [reflexivity|]. cbn [filter existsb]. destruct (named m d) eqn:E; cbn [negb].
  - apply named_eq in E. replace (named n d) with false; [exact IH|]. symmetry. unfold named. apply beqb_neq. congruence.
  - cbn [existsb]. rewrite IH. reflexivity.
Qed.
Lemma fold_add_filter n l : forall acc, fold_left add (filter (fun d => negb (named n d)) l) (filter (fun d => negb (named n d)) acc) = filter (fun d => negb (named n d)) (fold_left add l acc).
Proof.
  induction l as [|d l IH]; intros acc; [reflexivity|]. cbn [filter fold_left]. destruct (named n d) eqn:E; cbn [negb].
  - rewrite <- IH. f_equal. unfold add. destruct (existsb (named (dname d)) acc); [reflexivity|]. rewrite filter_app. cbn [filter]. rewrite E. cbn [negb]. rewrite app_nil_r. reflexivity.
  - cbn [fold_left]. rewrite <- IH. f_equal. unfold add. rewrite existsb_filter.
    + destruct (existsb (named (dname d)) acc); [reflexivity|]. rewrite filter_app. cbn [filter]. rewrite E. reflexivity.
    + intros Q. assert (named n d = true) by (apply named_eq; exact Q). congruence.
Qed.
Lemma fold_add_in l : forall acc d, In d (fold_left add l acc) -> In d acc \/ In d l.
Proof.
  induction l as [|e l IH]; intros acc d H; [left; exact H|]. cbn [fold_left] in H. apply IH in H as [H|H]; [|right; right; exact H].
  unfold add in H. destruct (existsb _ acc); [left; exact H|]. apply in_app_iff in H as [H|[H|[]]]; [left; exact H|right; left; exact H].
Qed.
Lemma fold_add_mono l : forall acc n, existsb (named n) acc = true -> existsb (named n) (fold_left add l acc) = true.
Proof.
  induction l as [|e l IH]; intros acc n H; [exact H|]. cbn [fold_left]. apply IH. unfold add. destruct (existsb (named (dname e)) acc); [exact H|]. rewrite existsb_app, H. reflexivity.
Qed.
Lemma fold_add_has l : forall acc d, In d l -> existsb (named (dname d)) (fold_left add l acc) = true.
Proof.
  induction l as [|e l IH]; intros acc d H; [destruct H|]. destruct H as [H|H]; cbn [fold_left].
  - subst e. apply fold_add_mono. unfold add. destruct (existsb (named (dname d)) acc) eqn:E; [exact E|]. rewrite existsb_app. cbn [existsb]. unfold named at 2. rewrite beqb_refl2. apply orb_true_r.
  - apply IH, H.
Qed.

(** * The invariant *)
Definition ix_of (d : def) : ix := {| xname := dname d; xkeys := dkeys d; ondisk := true |}.
Record Inv (s : store) (cs : list full) (G : list def) (T : list (list byte)) (F : list def) : Prop := {
  i_file : file s = recs F;
  i_F : oks F;
  i_cs : map fst (contexts s) = cs;
  i_nd : NoDup cs;
  i_ix : forall c x, In (c, x) (contexts s) -> indexes x = map ix_of (filter (of_coll c) G);
  i_addr : NoDup (map (fun p => addr (snd p)) (contexts s));
  i_next : forall c x, In (c, x) (contexts s) -> (addr x < next s)%nat;
  i_names : NoDup (map dname G);
  i_G : forall d, In d G -> dtype d = 0 /\ In (full_of (dcoll d)) cs /\ In (collection (dcoll d)) T;
  i_live : forall n, existsb (named n) G = true <-> exists a, agent_of s n = Some a /\ dropped a = false;
  i_agents : forall n a, In (n, a) (agents s) -> exists c x, In (c, x) (contexts s) /\ addr x = pointer a /\ In (snd c) T }.

Lemma find_context (l : list (full * context)) c : NoDup (map fst l) -> forall x,
  match find (fun p => full_eqb (fst p) c) l with Some p => Some (snd p) | None => None end = Some x <-> In (c, x) l.
Proof.
  induction l as [|[c' y] l IH]; intros N x; cbn [map fst find] in *; [split; [discriminate|intros []]|].
  inversion N as [|? ? NI N']; subst. destruct (full_eqb c' c) eqn:E; cbn [fst].
  - apply full_eqb_eq in E. subst. cbn [snd]. split; [intros H; injection H as ->; left; reflexivity|].
    intros [H|H]; [injection H as ->; reflexivity|]. exfalso. apply NI. change c with (fst (c, x)). apply in_map. exact H.
  - rewrite IH by assumption. split; [right; assumption|]. intros [H|H]; [|exact H]. injection H as -> ->. rewrite full_eqb_refl in E. discriminate.
Qed.
Lemma context_in s cs G T F c x : Inv s cs G T F -> (context_of s c = Some x <-> In (c, x) (contexts s)).
Proof. intros I. unfold context_of. apply find_context. rewrite (i_cs _ _ _ _ _ I). exact (i_nd _ _ _ _ _ I). Qed.
Lemma context_some s cs G T F c : Inv s cs G T F -> In c cs -> exists x, context_of s c = Some x /\ In (c, x) (contexts s).
Proof.
  intros I H. rewrite <- (i_cs _ _ _ _ _ I) in H. apply in_map_iff in H as ([c' x] & E & H). cbn in E. subst. exists x. split; [|exact H]. apply (context_in _ _ _ _ _ c x I), H.
Qed.
Lemma context_none s cs G T F c : Inv s cs G T F -> ~ In c cs -> context_of s c = None.
Proof.
  intros I H. destruct (context_of s c) as [x|] eqn:E; [|reflexivity]. exfalso. apply H. rewrite <- (i_cs _ _ _ _ _ I). apply (context_in _ _ _ _ _ c x I) in E.
  change c with (fst (c, x)). apply in_map, E.
Qed.
Lemma index_find n l : find (fun i => beqb (xname i) n) (map ix_of l) = match find (named n) l with Some d => Some (ix_of d) | None => None end.
Proof. induction l as [|d l IH]; [reflexivity|]. cbn [map find]. unfold named at 1. cbn [ix_of xname]. destruct (beqb (dname d) n); [reflexivity|exact IH]. Qed.
Lemma find_none_all {A} (f : A -> bool) l : (forall x, In x l -> f x = false) -> find f l = None.
Proof. induction l as [|a l IH]; intros H; [reflexivity|]. cbn [find]. rewrite (H a (or_introl eq_refl)). apply IH. intros x I. apply H. right. exact I. Qed.

Lemma agent_set l n a m : match find (fun p : list byte * agent => beqb (fst p) m) (set_agent l n a) with Some p => Some (snd p) | None => None end =
  if beqb n m then Some a else match find (fun p => beqb (fst p) m) l with Some p => Some (snd p) | None => None end.
Proof.
  unfold set_agent. destruct (beqb n m) eqn:E.
  - apply beqb_eq in E. subst m. induction l as [|[k b] l IH]; cbn [filter app find fst]; [rewrite beqb_refl2; reflexivity|].
    destruct (beqb k n) eqn:K; cbn [negb]; [exact IH|]. cbn [app find fst]. rewrite K. exact IH.
  - induction l as [|[k b] l IH]; cbn [filter app find fst]; [rewrite E; reflexivity|]. destruct (beqb k n) eqn:K; cbn [negb].
    + apply beqb_eq in K. subst k. rewrite E. exact IH.
    + cbn [app find fst]. destruct (beqb k m); [reflexivity|exact IH].
Qed.
Lemma set_agent_in l n a m b : In (m, b) (set_agent l n a) -> In (m, b) l \/ (m = n /\ b = a).
Proof. unfold set_agent. rewrite in_app_iff. intros [H|[H|[]]]; [left; apply filter_In in H; tauto|]. injection H as <- <-. right. split; reflexivity. Qed.

(** Changing the indexes of one collection *)
Lemma with_contexts s c f : contexts (with_indexes s c f) = map (fun p => if full_eqb (fst p) c then (fst p, {| addr := addr (snd p); indexes := f (indexes (snd p)) |}) else p) (contexts s).
Proof. reflexivity. Qed.
Lemma with_in (l : list (full * context)) c f c' x : In (c', x) (map (fun p => if full_eqb (fst p) c then (fst p, {| addr := addr (snd p); indexes := f (indexes (snd p)) |}) else p) l) ->
  exists y, In (c', y) l /\ addr x = addr y /\ indexes x = (if full_eqb c' c then f (indexes y) else indexes y).
Proof.
  rewrite in_map_iff. intros ([k y] & E & H). cbn [fst snd] in E. destruct (full_eqb k c) eqn:K.
  - injection E as <- <-. exists y. rewrite K. cbn. auto.
  - injection E as <- <-. exists y. rewrite K. auto.
Qed.
Lemma with_in_back (l : list (full * context)) c f c' y : In (c', y) l ->
  exists x, In (c', x) (map (fun p => if full_eqb (fst p) c then (fst p, {| addr := addr (snd p); indexes := f (indexes (snd p)) |}) else p) l) /\ addr x = addr y.
Proof.
  intros H. destruct (full_eqb c' c) eqn:K.
  - exists {| addr := addr y; indexes := f (indexes y) |}. split; [|reflexivity]. apply in_map_iff. exists (c', y). cbn [fst snd]. rewrite K. auto.
  - exists y. split; [|reflexivity]. apply in_map_iff. exists (c', y). cbn [fst snd]. rewrite K. auto.
Qed.
Lemma with_fst (l : list (full * context)) c f : map fst (map (fun p => if full_eqb (fst p) c then (fst p, {| addr := addr (snd p); indexes := f (indexes (snd p)) |}) else p) l) = map fst l.
Proof. rewrite map_map. apply map_ext. intros [k y]. cbn. destruct (full_eqb k c); reflexivity. Qed.
Lemma with_addr (l : list (full * context)) c f : map (fun p => addr (snd p)) (map (fun p => if full_eqb (fst p) c then (fst p, {| addr := addr (snd p); indexes := f (indexes (snd p)) |}) else p) l) = map (fun p => addr (snd p)) l.
Proof. rewrite map_map. apply map_ext. intros [k y]. cbn. destruct (full_eqb k c); reflexivity. Qed.

Lemma set_on_disk_done n l : set_on_disk n (map ix_of l) = map ix_of l.
Proof. unfold set_on_disk. rewrite map_map. apply map_ext. intros d. cbn. destruct (beqb (dname d) n); reflexivity. Qed.

(** * Creating an index *)
Lemma create_fresh s cs G T F d : Inv s cs G T F -> In (full_of (dcoll d)) cs -> dtype d = 0 -> IxMetaSpec.def_ok d = true ->
  existsb (named (dname d)) G = false -> In (collection (dcoll d)) T ->
  exists s', create_index s d = Ok (s', Done) /\ Inv s' cs (G ++ [d]) T (F ++ [d]).
Proof.
  intros I C Ty Ok0 Nn HT. set (c := full_of (dcoll d)) in *. destruct (context_some _ _ _ _ _ c I C) as (x & Hx & Ix).
  unfold create_index. fold c. rewrite Hx, Ty. cbn [N.eqb negb].
  assert (Ni : index_of x (dname d) = None).
  { unfold index_of. rewrite (i_ix _ _ _ _ _ I c x Ix), index_find. rewrite find_none_all; [reflexivity|]. intros e He. apply filter_In in He as [He _].
    unfold named. apply beqb_neq. exact (has_name_no _ _ Nn e He). }
  rewrite Ni. cbv zeta. set (f1 := fun l : list ix => l ++ [{| xname := dname d; xkeys := dkeys d; ondisk := false |}]). set (s1 := with_indexes s c f1).
  assert (Ag : forall (P : res (store * bool)) Q, match agent_of s1 (dname d) with Some {| dropped := false |} => P | _ => Q end = Q).
  { intros P Q. change (agent_of s1 (dname d)) with (agent_of s (dname d)). destruct (agent_of s (dname d)) as [[p b]|] eqn:E; [|reflexivity]. destruct b; [reflexivity|].
    exfalso. assert (existsb (named (dname d)) G = true); [|congruence]. apply (i_live _ _ _ _ _ I). exists {| pointer := p; dropped := false |}. auto. }
  unfold create_agent. rewrite Ag. rewrite write_rec by assumption. cbn [rbind].
  eexists. split; [reflexivity|]. constructor.
  - cbn [file with_indexes with_file with_agents]. unfold s1. cbn [file with_indexes]. rewrite (i_file _ _ _ _ _ I), recs_app. cbn [recs flat_map]. rewrite app_nil_r. reflexivity.
  - apply Forall_app. split; [exact (i_F _ _ _ _ _ I)|]. constructor; [assumption|constructor].
  - rewrite with_contexts. cbn [contexts with_file with_agents]. unfold s1. rewrite with_contexts, !with_fst. exact (i_cs _ _ _ _ _ I).
  - exact (i_nd _ _ _ _ _ I).
  - intros c' y Hy. rewrite with_contexts in Hy. cbn [contexts with_file with_agents] in Hy. apply with_in in Hy as (y1 & Hy1 & _ & E1).
    unfold s1 in Hy1. rewrite with_contexts in Hy1. apply with_in in Hy1 as (y0 & Hy0 & _ & E0). rewrite E1, E0. rewrite (i_ix _ _ _ _ _ I _ _ Hy0). unfold f1.
    rewrite filter_app. cbn [filter]. destruct (full_eqb c' c) eqn:K.
    + apply full_eqb_eq in K. subst c'. replace (of_coll c d) with true by (symmetry; apply full_eqb_refl). rewrite map_app. unfold set_on_disk. rewrite map_app. fold (set_on_disk (dname d)).
      change (map (fun i : ix => if beqb (xname i) (dname d) then {| xname := xname i; xkeys := xkeys i; ondisk := true |} else i) (map ix_of (filter (of_coll c) G))) with (set_on_disk (dname d) (map ix_of (filter (of_coll c) G))).
      rewrite set_on_disk_done. cbn [map xname]. rewrite beqb_refl2. reflexivity.
    + replace (of_coll c' d) with false; [rewrite app_nil_r; reflexivity|]. symmetry. unfold of_coll. fold c. apply full_eqb_neq. intros Q. subst c'. rewrite full_eqb_refl in K. discriminate.
  - rewrite with_contexts. cbn [contexts with_file with_agents]. unfold s1. rewrite with_contexts, !with_addr. exact (i_addr _ _ _ _ _ I).
  - intros c' y Hy. rewrite with_contexts in Hy. cbn [contexts with_file with_agents] in Hy. apply with_in in Hy as (y1 & Hy1 & A1 & _).
    unfold s1 in Hy1. rewrite with_contexts in Hy1. apply with_in in Hy1 as (y0 & Hy0 & A0 & _). rewrite A1, A0. exact (i_next _ _ _ _ _ I _ _ Hy0).
  - rewrite map_app. cbn [map]. pose proof (i_names _ _ _ _ _ I) as N. apply (@NoDup_incl_NoDup _ (dname d :: map dname G)).
    + constructor; [|exact N]. intros Q. apply in_map_iff in Q as (e & E & He). exact (has_name_no _ _ Nn e He E).
    + rewrite app_length. cbn [length]. lia.
    + intros z [<-|Hz]; apply in_app_iff; [right; left; reflexivity|left; exact Hz].
  - intros e He. apply in_app_iff in He as [He|[<-|[]]]; [exact (i_G _ _ _ _ _ I e He)|]. split; [exact Ty|split; [exact C|exact HT]].
  - intros n. unfold agent_of. cbn [agents with_indexes with_file with_agents]. unfold s1. cbn [agents with_indexes]. rewrite agent_set, existsb_app. cbn [existsb].
    rewrite orb_false_r. unfold named at 2. destruct (beqb (dname d) n) eqn:K.
    + rewrite orb_true_r. split; [|reflexivity]. intros _. eexists. split; reflexivity.
    + rewrite orb_false_r. exact (i_live _ _ _ _ _ I n).
  - intros n a Ha. cbn [agents with_indexes with_file with_agents] in Ha. unfold s1 in Ha. cbn [agents with_indexes] in Ha. apply set_agent_in in Ha.
    assert (B : exists c' y, In (c', y) (contexts s) /\ addr y = pointer a /\ In (snd c') T).
    { destruct Ha as [Ha|[_ ->]]; [exact (i_agents _ _ _ _ _ I n a Ha)|]. exists c, x. split; [exact Ix|]. split; [reflexivity|exact HT]. }
    destruct B as (c' & y & Hy & Ay & Ty'). destruct (with_in_back _ c f1 c' y Hy) as (y1 & Hy1 & A1).
    destruct (with_in_back _ c (set_on_disk (dname d)) c' y1 Hy1) as (y2 & Hy2 & A2). exists c', y2. split; [exact Hy2|]. split; [congruence|exact Ty'].
Qed.

Lemma create_known s cs G T F d : Inv s cs G T F -> In (full_of (dcoll d)) cs -> dtype d = 0 ->
  existsb (named (dname d)) G = true -> (forall e, In e G -> dname e = dname d -> full_of (dcoll e) = full_of (dcoll d)) ->
  create_index s d = Ok (s, Refused).
Proof.
  intros I C Ty N Sm. set (c := full_of (dcoll d)) in *. destruct (context_some _ _ _ _ _ c I C) as (x & Hx & Ix).
  unfold create_index. fold c. rewrite Hx, Ty. cbn [N.eqb negb].
  assert (Ni : exists i, index_of x (dname d) = Some i).
  { unfold index_of. rewrite (i_ix _ _ _ _ _ I c x Ix), index_find. apply has_name in N as (e & He & En).
    destruct (find (named (dname d)) (filter (of_coll c) G)) as [z|] eqn:Z; [eauto|]. exfalso.
    pose proof (find_none _ _ Z e) as Q. rewrite filter_In in Q. specialize (Q (conj He (proj2 (full_eqb_eq _ _) (Sm e He En)))). unfold named in Q. rewrite En, beqb_refl2 in Q. discriminate. }
  destruct Ni as (i & ->). cbv zeta. unfold create_agent. apply (i_live _ _ _ _ _ I) in N as ([p b] & Ha & Hb). cbn in Hb. subst b. rewrite Ha. reflexivity.
Qed.

(** * Dropping an index *)
Lemma same_name G d e : NoDup (map dname G) -> In d G -> In e G -> dname d = dname e -> d = e.
Proof.
  induction G as [|g G IH]; intros N Hd He E; [destruct Hd|]. cbn [map] in N. inversion N as [|? ? NI N']; subst. destruct Hd as [->|Hd], He as [->|He]; [reflexivity| | |].
  - exfalso. apply NI. rewrite E. apply in_map, He.
  - exfalso. apply NI. rewrite <- E. apply in_map, Hd.
  - apply IH; assumption.
Qed.
Lemma NoDup_map_filter {A B} (f : A -> B) p l : NoDup (map f l) -> NoDup (map f (filter p l)).
Proof.
  induction l as [|a l IH]; intros N; [exact N|]. cbn [map] in N. inversion N as [|? ? NI N']; subst. cbn [filter]. destruct (p a); [|apply IH, N'].
  cbn [map]. constructor; [|apply IH, N']. intros Q. apply NI. apply in_map_iff in Q as (b & E & Hb). apply filter_In in Hb as [Hb _]. rewrite <- E. apply in_map, Hb.
Qed.

Lemma drop_one s cs G T F d : Inv s cs G T F -> In d G ->
  exists s', drop_index s (full_of (dcoll d)) (dname d) = Ok (s', Done) /\
    Inv s' cs (filter (fun e => negb (named (dname d) e)) G) T (filter (fun e => negb (named (dname d) e)) F).
Proof.
  intros I Hd. set (c := full_of (dcoll d)). destruct (i_G _ _ _ _ _ I d Hd) as (Ty & C & HT). fold c in C. destruct (context_some _ _ _ _ _ c I C) as (x & Hx & Ix).
  unfold drop_index. rewrite Hx. unfold index_of. rewrite (i_ix _ _ _ _ _ I c x Ix), index_find.
  destruct (find (named (dname d)) (filter (of_coll c) G)) as [z|] eqn:Z.
  2:{ exfalso. pose proof (find_none _ _ Z d) as Q. rewrite filter_In in Q. specialize (Q (conj Hd (full_eqb_refl c))). unfold named in Q. rewrite beqb_refl2 in Q. discriminate. }
  cbn [ix_of ondisk]. unfold drop_on_disk.
  assert (Lv : exists a, agent_of s (dname d) = Some a /\ dropped a = false) by (apply (i_live _ _ _ _ _ I); apply has_name; eauto).
  destruct Lv as (a & Ha & _). rewrite Ha. rewrite (i_file _ _ _ _ _ I), remove_index_recs by exact (i_F _ _ _ _ _ I). cbn [rbind].
  eexists. split; [reflexivity|]. constructor.
  - reflexivity.
  - apply oks_filter. exact (i_F _ _ _ _ _ I).
  - rewrite with_contexts. cbn [contexts with_file with_agents]. rewrite with_fst. exact (i_cs _ _ _ _ _ I).
  - exact (i_nd _ _ _ _ _ I).
  - intros c' y Hy. rewrite with_contexts in Hy. cbn [contexts with_file with_agents] in Hy. apply with_in in Hy as (y0 & Hy0 & _ & E0). rewrite E0, (i_ix _ _ _ _ _ I _ _ Hy0).
    assert (FF : forall p l, filter (fun j => negb (beqb (xname j) (dname d))) (map ix_of (filter p l)) = map ix_of (filter p (filter (fun e => negb (named (dname d) e)) l))).
    { intros p l. induction l as [|e l IH]; [reflexivity|]. cbn [filter]. destruct (named (dname d) e) eqn:K; cbn [negb].
      - destruct (p e); [|exact IH]. cbn [map filter]. cbn [ix_of xname]. unfold named in K. rewrite K. exact IH.
      - cbn [filter]. destruct (p e); [|exact IH]. cbn [map filter]. cbn [ix_of xname]. unfold named in K. rewrite K. cbn [negb]. rewrite IH. reflexivity. }
    destruct (full_eqb c' c) eqn:K; [apply FF|].
    f_equal. clear -K Hd I. assert (forall e, In e G -> named (dname d) e = true -> of_coll c' e = false).
    { intros e He Hn. apply named_eq in Hn. rewrite (same_name G e d (i_names _ _ _ _ _ I) He Hd Hn). unfold of_coll. fold c. apply full_eqb_neq. intros ->. rewrite full_eqb_refl in K. discriminate. }
    revert H. generalize G. intros l H. induction l as [|e l IH]; [reflexivity|]. cbn [filter]. destruct (named (dname d) e) eqn:N; cbn [negb].
    + rewrite (H e (or_introl eq_refl) N). apply IH. intros z Hz. apply H. right. exact Hz.
    + cbn [filter]. rewrite IH by (intros z Hz; apply H; right; exact Hz). reflexivity.
  - rewrite with_contexts. cbn [contexts with_file with_agents]. rewrite with_addr. exact (i_addr _ _ _ _ _ I).
  - intros c' y Hy. rewrite with_contexts in Hy. cbn [contexts with_file with_agents] in Hy. apply with_in in Hy as (y0 & Hy0 & A0 & _). rewrite A0. exact (i_next _ _ _ _ _ I _ _ Hy0).
  - apply NoDup_map_filter. exact (i_names _ _ _ _ _ I).
  - intros e He. apply filter_In in He as [He _]. exact (i_G _ _ _ _ _ I e He).
  - intros n. unfold agent_of. cbn [agents with_indexes with_file with_agents]. rewrite agent_set. destruct (beqb (dname d) n) eqn:K.
    + apply beqb_eq in K. subst n. split.
      * intros Q. apply has_name in Q as (e & He & En). apply filter_In in He as [_ He]. unfold named in He. rewrite En, beqb_refl2 in He. discriminate.
      * intros (b & E & Db). injection E as <-. discriminate Db.
    + rewrite existsb_filter; [exact (i_live _ _ _ _ _ I n)|]. intros ->. rewrite beqb_refl2 in K. discriminate.
  - intros n b Hb. cbn [agents with_indexes with_file with_agents] in Hb. apply set_agent_in in Hb.
    assert (B : exists c' y, In (c', y) (contexts s) /\ addr y = pointer b /\ In (snd c') T).
    { destruct Hb as [Hb|[_ ->]]; [exact (i_agents _ _ _ _ _ I n b Hb)|]. cbn [drop_agent pointer].
      unfold agent_of in Ha. destruct (find (fun p => beqb (fst p) (dname d)) (agents s)) as [[m a']|] eqn:Q; [|discriminate Ha]. injection Ha as <-. apply find_some in Q as [Q _]. exact (i_agents _ _ _ _ _ I m a' Q). }
    destruct B as (c' & y & Hy & Ay & Ty'). destruct (with_in_back _ c (filter (fun j => negb (beqb (xname j) (dname d)))) c' y Hy) as (y1 & Hy1 & A1).
    exists c', y1. split; [exact Hy1|]. split; [congruence|exact Ty'].
Qed.
