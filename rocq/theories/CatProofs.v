(** Proofs about namespaces and tables. *)
From Coq Require FinFun.
From Verif Require Import Bytes Outcome ByteOrd OMap TrieModel TrieProofs CSchemaModel CatModel CatSpec.

Lemma s_irr a : bltb a a = false.
Proof. unfold bltb. rewrite bcmp_refl. reflexivity. Qed.
Lemma s_trans a b c : bltb a b = true -> bltb b c = true -> bltb a c = true.
Proof.
  unfold bltb. destruct (bcmp a b) eqn:E1; try discriminate. destruct (bcmp b c) eqn:E2; try discriminate.
  rewrite (bcmp_trans _ _ _ E1 E2). reflexivity.
Qed.
Lemma s_tot a b : bltb a b = false -> bltb b a = false -> a = b.
Proof.
  unfold bltb. rewrite (bcmp_sym a b). destruct (bcmp a b) eqn:E; cbn; try discriminate.
  intros _ _. apply bcmp_eq. exact E.
Qed.

Lemma path_eqb_spec p q : reflect (p = q) (path_eqb p q).
Proof. unfold path_eqb. destruct (list_eq_dec (list_eq_dec ascii_dec) p q); constructor; assumption. Qed.
Lemma path_eqb_refl p : path_eqb p p = true.
Proof. destruct (path_eqb_spec p p); congruence. Qed.

(** ** What creating a namespace adds *)
Section Adds.
  Context {M : Type}.
  Implicit Types w : world M.

  Lemma adds_nil w q : adds w [] q = false.
  Proof.
    unfold adds, begins. rewrite firstn_nil. destruct (path_eqb_spec q []); [reflexivity|]. reflexivity.
  Qed.

  Lemma begins_length q p : begins q p = true -> length q <= length p.
  Proof.
    unfold begins. destruct (path_eqb_spec q (firstn (length q) p)) as [E|]; [|discriminate]. intros _.
    rewrite E at 1. rewrite firstn_length. lia.
  Qed.

  Lemma begins_snoc q p e : begins q (p ++ [e]) = path_eqb q (p ++ [e]) || begins q p.
  Proof.
    unfold begins. destruct (path_eqb_spec q (p ++ [e])) as [E|E]; cbn [orb].
    - subst q. rewrite firstn_all. apply path_eqb_refl.
    - destruct (Nat.le_gt_cases (length q) (length p)) as [L|L].
      + rewrite firstn_app. replace (length q - length p) with 0 by lia. cbn. rewrite app_nil_r. reflexivity.
      + rewrite (firstn_all2 p) by lia. rewrite (firstn_all2 (n := length q)) by (rewrite app_length; cbn; lia).
        destruct (path_eqb_spec q (p ++ [e])), (path_eqb_spec q p); congruence || (subst; lia).
  Qed.

  Lemma firstn_same_seq (p : list (list byte)) l a n : a + n <= S (length p) ->
    map (fun i => firstn i (p ++ l)) (seq a n) = map (fun i => firstn i p) (seq a n).
  Proof.
    intros H. apply map_ext_in. intros i Hi. apply in_seq in Hi. rewrite firstn_app.
    replace (i - length p) with 0 by lia. cbn. apply app_nil_r.
  Qed.

  Lemma between_snoc q p e : length q <= length p -> between q (p ++ [e]) = between q p ++ [p ++ [e]].
  Proof.
    intros L. unfold between. rewrite app_length. cbn [length].
    replace (S (length p + 1) - length q) with ((S (length p) - length q) + 1) by lia.
    rewrite seq_app, map_app, firstn_same_seq by lia. f_equal.
    cbn [seq map]. rewrite firstn_all2; [reflexivity|]. rewrite app_length. cbn [length]. lia.
  Qed.

  Lemma between_self p : between p p = [p].
  Proof. unfold between. replace (S (length p) - length p) with 1 by lia. cbn. rewrite firstn_all. reflexivity. Qed.

  Lemma adds_snoc w p e q :
    adds w (p ++ [e]) q = negb (there w (p ++ [e])) && (path_eqb q (p ++ [e]) || adds w p q).
  Proof.
    unfold adds. rewrite begins_snoc. destruct (path_eqb_spec q (p ++ [e])) as [->|E]; cbn [orb].
    - rewrite between_self. cbn. destruct (path_eqb_spec (p ++ [e]) []) as [E|]; [destruct p; discriminate|].
      cbn. rewrite !andb_true_r. reflexivity.
    - destruct (begins q p) eqn:B; [|rewrite !andb_false_r, !andb_false_l, ?andb_false_r; reflexivity].
      rewrite (between_snoc q p e (begins_length _ _ B)), forallb_app. cbn. rewrite !andb_true_r.
      destruct (negb (path_eqb q [])); [|rewrite andb_false_l, andb_false_r; reflexivity].
      cbn. apply andb_comm.
  Qed.

  Lemma adds_there w p q : there w p = true -> adds w p q = false.
  Proof.
    intros H. destruct p as [|e p] using rev_ind; [apply adds_nil|]. rewrite adds_snoc, H. reflexivity.
  Qed.
End Adds.

(** ** The model and the world *)
Section Catalog.
  Context {M : Type}.
  Implicit Types (w : world M) (c : trie (list byte) (info M)).
  Notation LKC c p := (lk bltb c p).
  Notation TW c := (twf bltb c).

  Definition same_tabs (i : info M) (t : tabs M) : Prop :=
    msorted bcmp (tables i) /\ msorted bcmp (computing i) /\
    forall k n, mfind bcmp n (get_map k i) = t k n.

  Definition Rns c w (p : list (list byte)) : Prop :=
    match w p with
    | None => LKC c p = []
    | Some t => exists v i, LKC c p = [(v, i)] /\ same_tabs i t
    end.
  Record R c w : Prop := {
    R_wf : TW c;
    R_top : w [] = None;
    R_at : forall p, p <> [] -> Rns c w p
  }.

  Lemma R_ext c w w' : R c w -> (forall p, w' p = w p) -> R c w'.
  Proof.
    intros [H1 H2 H3] HE. constructor; [exact H1|rewrite HE; exact H2|].
    intros p Hp. unfold Rns. rewrite HE. apply H3, Hp.
  Qed.

  Lemma R_empty : R empty_trie (empty_world : world M).
  Proof. constructor; [apply twf_empty|reflexivity|]. intros p Hp. reflexivity. Qed.

  Lemma R_exists c w p : R c w -> ns_exists c p = there w p.
  Proof.
    intros [H1 H2 H3]. unfold ns_exists, there. destruct p as [|e p]; [rewrite H2; reflexivity|].
    rewrite find_lk. specialize (H3 (e :: p) ltac:(discriminate)). unfold Rns in H3.
    destruct (w (e :: p)) as [t|].
    - destruct H3 as [v [i [-> _]]]. reflexivity.
    - rewrite H3. reflexivity.
  Qed.

  Definition w_add w p : world M := fun q => if path_eqb q p then Some (fun _ _ => None) else w q.

  Lemma same_none : same_tabs no_tables (fun _ _ => None : option M).
  Proof. split; [constructor|]. split; [constructor|]. intros [] n; reflexivity. Qed.

  Lemma R_insert c w p : R c w -> p <> [] -> there w p = false ->
    R (fst (insert bltb c p no_tables)) (w_add w p).
  Proof.
    intros [H1 H2 H3] Hp Hnt.
    pose proof (insert_spec bltb nolive s_irr s_trans s_tot c p no_tables H1) as [W1 [_ [W2 W3]]].
    constructor; [exact W1| |].
    - unfold w_add. destruct (path_eqb_spec [] p); [congruence|exact H2].
    - intros q Hq. unfold Rns, w_add. destruct (path_eqb_spec q p) as [->|Hqp].
      + specialize (H3 p Hp). unfold Rns in H3. unfold there in Hnt. destruct (w p); [discriminate|].
        rewrite H3 in W2. cbn in W2. exists (t_cur c), no_tables. split; [exact W2|apply same_none].
      + specialize (H3 q Hq). unfold Rns in H3. rewrite (W3 _ Hqp). exact H3.
  Qed.

  Lemma R_insert_top c w : R c w -> R (fst (insert bltb c [] no_tables)) w.
  Proof.
    intros [H1 H2 H3].
    pose proof (insert_spec bltb nolive s_irr s_trans s_tot c [] no_tables H1) as [W1 [_ [W2 W3]]].
    constructor; [exact W1|exact H2|]. intros q Hq. unfold Rns. rewrite (W3 _ Hq). apply H3, Hq.
  Qed.

  Lemma ns_insert_fst c p : fst (ns_insert c p) = fst (insert bltb c p (no_tables : info M)).
  Proof. unfold ns_insert. destruct (insert bltb c p no_tables) as [c' ok]. reflexivity. Qed.

  Lemma create_rev_nofreed rp : forall c c1, create_rev c rp <> (c1, Freed) :> trie (list byte) (info M) * out.
  Proof.
    assert (HN : forall c0 c1 p, ns_insert c0 p <> (c1, Freed) :> trie (list byte) (info M) * out).
    { intros c0 c1 p. unfold ns_insert. destruct (insert bltb c0 p no_tables) as [? []]; intros H; congruence. }
    induction rp as [|a r IH]; intros c c1 H.
    - apply (HN c c1 [] H).
    - cbn [create_rev] in H. destruct (ns_exists c (rev (a :: r))); [congruence|].
      destruct r as [|b r]; [apply HN in H; exact H|].
      destruct (ns_exists c (rev (b :: r))); [apply HN in H; exact H|].
      destruct (create_rev c (b :: r)) as [c2 []] eqn:E2; [apply HN in H; exact H|congruence|].
      apply (IH _ _ E2).
  Qed.

  Lemma create_rev_R rp : forall c w c' x, R c w -> create_rev c rp = (c', x) -> x <> Thrown ->
    R c' (w_create w (rev rp)).
  Proof.
    induction rp as [|e rq IH]; intros c w c' x HR Hc Hx.
    - change (ns_insert c [] = (c', x)) in Hc. pose proof (ns_insert_fst c []) as HF. rewrite Hc in HF. cbn in HF. subst c'.
      apply (R_ext _ w); [apply R_insert_top, HR|]. intros p. unfold w_create. cbn. rewrite adds_nil. reflexivity.
    - cbn [create_rev] in Hc. change (rev (e :: rq)) with (rev rq ++ [e]) in *.
      rewrite (R_exists c w _ HR) in Hc.
      destruct (there w (rev rq ++ [e])) eqn:Ht.
      + injection Hc as <- <-. apply (R_ext _ w _ HR). intros p. unfold w_create. rewrite (adds_there w _ _ Ht). reflexivity.
      + assert (Hne : rev rq ++ [e] <> []) by (destruct (rev rq); discriminate).
        assert (Hlast : forall c0, R c0 w -> (rq = [] \/ there w (rev rq) = true) ->
                  R (fst (ns_insert c0 (rev rq ++ [e]))) (w_create w (rev rq ++ [e]))).
        { intros c0 HR0 Hpar. rewrite ns_insert_fst. apply (R_ext _ (w_add w (rev rq ++ [e]))).
          - apply R_insert; assumption.
          - intros p. unfold w_create, w_add. rewrite adds_snoc, Ht. cbn [negb andb].
            assert (Ha : adds w (rev rq) p = false).
            { destruct Hpar as [->|Hpar]; [apply adds_nil|apply adds_there, Hpar]. }
            rewrite Ha, orb_false_r. reflexivity. }
        destruct rq as [|e2 rq'].
        * pose proof (Hlast c HR (or_introl eq_refl)) as HL. rewrite Hc in HL. exact HL.
        * set (rq := e2 :: rq') in *. rewrite (R_exists c w _ HR) in Hc.
          destruct (there w (rev rq)) eqn:Hpar.
          -- pose proof (Hlast c HR (or_intror eq_refl)) as HL. rewrite Hc in HL. exact HL.
          -- destruct (create_rev c rq) as [c1 x1] eqn:Hr. destruct x1.
             ++ pose proof (IH c w c1 Done HR Hr ltac:(discriminate)) as HR1.
                assert (Ht1 : there (w_create w (rev rq)) (rev rq ++ [e]) = false).
                { unfold there, w_create. destruct (adds w (rev rq) (rev rq ++ [e])) eqn:Ea; [|exact Ht].
                  unfold adds in Ea. apply andb_true_iff in Ea. destruct Ea as [Ea _]. apply andb_true_iff in Ea.
                  destruct Ea as [_ Ea]. apply begins_length in Ea. rewrite app_length in Ea. cbn in Ea. lia. }
                pose proof (R_insert _ _ _ HR1 Hne Ht1) as HR2. rewrite <- ns_insert_fst, Hc in HR2. cbn [fst] in HR2.
                apply (R_ext _ _ _ HR2). intros p. unfold w_create, w_add. rewrite adds_snoc, Ht. cbn [negb andb].
                destruct (path_eqb p (rev rq ++ [e])); reflexivity.
             ++ injection Hc as <- <-. contradiction.
             ++ apply create_rev_nofreed in Hr. contradiction.
  Qed.

  Lemma create_R c w p c' x : R c w -> create_namespace c p = (c', x) -> x <> Thrown -> R c' (w_create w p).
  Proof.
    intros HR Hc Hx. unfold create_namespace in Hc. pose proof (create_rev_R _ _ _ _ _ HR Hc Hx) as H.
    rewrite rev_involutive in H. exact H.
  Qed.

  Lemma R_below c w p : R c w -> p <> [] -> (has_longer bltb c p <-> exists q, below p q /\ there w q = true).
  Proof.
    intros HR Hp. assert (HL : forall e tl, LKC c (p ++ e :: tl) <> [] <-> there w (p ++ e :: tl) = true).
    { intros e tl. assert (Hn : p ++ e :: tl <> []) by (destruct p; discriminate).
      pose proof (R_at _ _ HR _ Hn) as HA. unfold Rns in HA. unfold there. destruct (w (p ++ e :: tl)).
      - destruct HA as [v [i [-> _]]]. split; [reflexivity|discriminate].
      - rewrite HA. split; [contradiction|discriminate]. }
    unfold has_longer, below. split.
    - intros [e [tl H]]. exists (p ++ e :: tl). split; [exists e, tl; reflexivity|apply HL, H].
    - intros [q [[a [l ->]] H]]. exists a, l. apply HL, H.
  Qed.

  Lemma drop_R c w p c' x : R c w -> drop_namespace c p = (c', x) ->
    R c' (w_drop w p) /\
    (x = Freed <-> there w p = true /\ forall q, below p q -> there w q = false) /\ x <> Thrown.
  Proof.
    intros HR Hd. unfold drop_namespace in Hd. rewrite (R_exists _ _ _ HR) in Hd.
    destruct (there w p) eqn:Ht.
    - assert (Hp : p <> []) by (intros ->; unfold there in Ht; rewrite (R_top _ _ HR) in Ht; discriminate).
      pose proof (R_at _ _ HR p Hp) as HA. unfold Rns in HA. pose proof Ht as Ht'. unfold there in Ht'.
      destruct (w p) as [t|] eqn:Hw; [|discriminate]. destruct HA as [v [i [HA _]]].
      assert (Hne : LKC c p <> []) by (rewrite HA; discriminate).
      pose proof (erase_spec bltb nolive s_irr s_trans s_tot c p (R_wf _ _ HR) Hne) as HE.
      destruct (erase bltb nolive c p) as [c2 freed]. cbn [fst snd] in HE. injection Hd as <- <-.
      destruct HE as [E1 [_ [E2 [E3 E4]]]]. rewrite HA in E3, E4. cbn in E3, E4.
      pose proof (R_below _ _ _ HR Hp) as HB.
      assert (Hg : LKC c2 p = [] /\ (freed = true <-> ~ has_longer bltb c p)).
      { destruct (longer_dec bltb s_irr s_tot c p (R_wf _ _ HR)) as [HL|HL].
        - destruct (E3 HL) as [-> ->]. split; [reflexivity|]. split; [discriminate|contradiction].
        - destruct (E4 HL eq_refl) as [-> ->]. split; [reflexivity|]. split; [intros _; exact HL|reflexivity]. }
      destruct Hg as [Hg1 Hg2]. split; [|split].
      + constructor; [exact E1| |].
        * unfold w_drop. destruct (path_eqb_spec [] p); [reflexivity|apply (R_top _ _ HR)].
        * intros q Hq. unfold Rns, w_drop. destruct (path_eqb_spec q p) as [->|Hqp]; [exact Hg1|].
          rewrite (E2 _ Hqp). apply (R_at _ _ HR q Hq).
      + rewrite HB in Hg2. destruct freed.
        * split; [|reflexivity]. intros _. split; [reflexivity|]. intros q Hq. destruct (there w q) eqn:Eq; [|reflexivity].
          exfalso. apply (proj1 Hg2 eq_refl). exists q. auto.
        * split; [discriminate|]. intros [_ Hq]. exfalso. assert (false = true); [|discriminate]. apply Hg2.
          intros [q [Hb Hq2]]. rewrite (Hq q Hb) in Hq2. discriminate.
      + destruct freed; discriminate.
    - injection Hd as <- <-. split; [|split; [|discriminate] ].
      + apply (R_ext _ w _ HR). intros q. unfold w_drop. destruct (path_eqb_spec q p) as [->|]; [|reflexivity].
        unfold there in Ht. destruct (w p); [discriminate|reflexivity].
      + split; [discriminate|]. intros [H _]. discriminate.
  Qed.

  (** Tables. *)
  Lemma R_info c w p : R c w ->
    match w p with
    | None => get_info c p = Err Throw
    | Some t => exists i, get_info c p = Ok i /\ same_tabs i t
    end.
  Proof.
    intros HR. unfold get_info. rewrite (R_exists _ _ _ HR). unfold there. destruct (w p) as [t|] eqn:Hw; [|reflexivity].
    assert (Hp : p <> []) by (intros ->; rewrite (R_top _ _ HR) in Hw; discriminate).
    pose proof (R_at _ _ HR p Hp) as HA. unfold Rns in HA. rewrite Hw in HA. destruct HA as [v [i [HA HS]]].
    rewrite find_lk, HA. cbn. exists i. auto.
  Qed.

  Lemma R_texists c w k p n : R c w -> table_exists k c p n = match t_at w k p n with Some _ => true | None => false end.
  Proof.
    intros HR. unfold table_exists, t_at. pose proof (R_info c w p HR) as HI. destruct (w p) as [t|].
    - destruct HI as [i [-> [_ [_ HS]]]]. unfold mmem. rewrite HS. reflexivity.
    - rewrite HI. reflexivity.
  Qed.

  (** A change of the tables of one namespace. *)
  Lemma R_upd c w w' p g : R c w -> there w p = true ->
    (forall q, q <> p -> w' q = w q) ->
    (forall i t, w p = Some t -> same_tabs i t -> exists t', w' p = Some t' /\ same_tabs (g i) t') ->
    R (upd_info c p g) w'.
  Proof.
    intros HR Ht Ho Hg. assert (Hp : p <> []) by (intros ->; unfold there in Ht; rewrite (R_top _ _ HR) in Ht; discriminate).
    pose proof (R_at _ _ HR p Hp) as HA. unfold Rns in HA. unfold there in Ht.
    destruct (w p) as [t|] eqn:Hw; [|discriminate]. destruct HA as [v [i [HA HS]]].
    assert (Hne : LKC c p <> []) by (rewrite HA; discriminate).
    assert (HL : forall vs : list (N * info M), length (change_last g vs) = length vs).
    { intros vs. unfold change_last. rewrite <- (rev_length vs). destruct (rev vs) as [|[a b] r]; [reflexivity|].
      rewrite rev_length. reflexivity. }
    destruct (update_spec bltb s_irr s_trans s_tot c p (change_last g) (R_wf _ _ HR) Hne HL) as [U1 [_ [U3 U4]]].
    fold (upd_info c p g) in *. constructor; [exact U1| |].
    - rewrite Ho; [apply (R_top _ _ HR)|congruence].
    - intros q Hq. destruct (path_eqb_spec q p) as [->|Hqp].
      + unfold Rns. destruct (Hg i t eq_refl HS) as [t' [-> HS']]. rewrite U3, HA. cbn. exists v, (g i). auto.
      + unfold Rns. rewrite (Ho _ Hqp), (U4 _ Hqp). apply (R_at _ _ HR q Hq).
  Qed.

  Lemma t_set_other w k p n m q : q <> p ->
    forall r, match t_set w k p n m q with Some t => Some (t : tabs M) | None => None end = r ->
    match w q with Some _ => r <> None | None => r = None end.
  Proof. intros Hq r <-. unfold t_set. destruct (w q); [discriminate|reflexivity]. Qed.

  (** Worlds that agree on what can be observed. *)
  Definition weq w w' : Prop :=
    forall p, match w p, w' p with
              | Some t, Some t' => forall k n, t k n = t' k n
              | None, None => True
              | _, _ => False
              end.
  Lemma R_weq c w w' : R c w -> weq w w' -> R c w'.
  Proof.
    intros [H1 H2 H3] HE. constructor; [exact H1| |].
    - specialize (HE []). rewrite H2 in HE. destruct (w' []); [contradiction|reflexivity].
    - intros p Hp. specialize (H3 p Hp). specialize (HE p). unfold Rns in *. destruct (w p) as [t|], (w' p) as [t'|]; try contradiction.
      + destruct H3 as [v [i [HA [S1 [S2 S3]]]]]. exists v, i. split; [exact HA|]. split; [exact S1|]. split; [exact S2|].
        intros k n. rewrite S3. apply HE.
      + exact H3.
  Qed.

  Lemma kind_eqb_spec a b : reflect (a = b) (kind_eqb a b).
  Proof. destruct a, b; constructor; congruence. Qed.

  Lemma same_set k (m : list (list byte * M)) i t :
    same_tabs i t -> msorted bcmp m ->
    same_tabs (set_map k m i) (fun k' n' => if kind_eqb k' k then mfind bcmp n' m else t k' n').
  Proof.
    intros [S1 [S2 S3]] Hm. split; [destruct k; assumption|]. split; [destruct k; assumption|].
    intros k' n'. destruct k, k'; cbn; try reflexivity; [apply (S3 Computing n')|apply (S3 Regular n')].
  Qed.

  (** The world after one entry changed, up to what can be observed. *)
  Definition t_put w k p (f : list byte -> option M) : world M :=
    fun q => match w q with
             | None => None
             | Some t => Some (fun k' n' => if path_eqb q p && kind_eqb k' k then f n' else t k' n')
             end.
  Lemma R_put c w k p gi (g : list (list byte * M) -> list (list byte * M)) f :
    R c w -> there w p = true ->
    (forall i t, w p = Some t -> same_tabs i t -> gi i = set_map k (g (get_map k i)) i) ->
    (forall m, msorted bcmp m -> (forall n, mfind bcmp n m = t_at w k p n) -> msorted bcmp (g m) /\ forall n, mfind bcmp n (g m) = f n) ->
    R (upd_info c p gi) (t_put w k p f).
  Proof.
    intros HR Ht Hgi Hg.
    set (w1 := fun q => if path_eqb q p then t_put w k p f q else w q).
    apply (R_weq _ w1).
    - apply (R_upd c w w1 p); [exact HR|exact Ht| |].
      + intros q Hq. unfold w1. destruct (path_eqb_spec q p); [contradiction|reflexivity].
      + intros i t Hw HS. unfold w1. rewrite path_eqb_refl. unfold t_put. rewrite Hw. eexists. split; [reflexivity|].
        rewrite (Hgi i t Hw HS). destruct HS as [S1 [S2 S3]].
        destruct (Hg (get_map k i)) as [G1 G2].
        { destruct k; assumption. }
        { intros n. unfold t_at. rewrite Hw. apply S3. }
        pose proof (same_set k (g (get_map k i)) i t (conj S1 (conj S2 S3)) G1) as [T1 [T2 T3]].
        split; [exact T1|]. split; [exact T2|]. intros k' n'. rewrite T3, path_eqb_refl. cbn [andb].
        destruct (kind_eqb k' k); [apply G2|reflexivity].
    - intros q. unfold w1. destruct (path_eqb_spec q p) as [->|Hq].
      + destruct (t_put w k p f p); [reflexivity|exact I].
      + unfold t_put. destruct (w q); [|exact I]. intros k' n'. destruct (path_eqb_spec q p); [contradiction|reflexivity].
  Qed.

  Lemma beq_dec a b : reflect (a = b) (beqb a b).
  Proof. apply beqb_spec. Qed.

  Lemma create_table_R c w k p n m c' e : R c w -> create_table k c p n m = (c', e) ->
    R c' (fst (wstep w (TCreate k p n m))) /\ e = snd (wstep w (TCreate k p n m)).
  Proof.
    intros HR Hc. unfold create_table in Hc. rewrite (R_exists _ _ _ HR), (R_texists _ w _ _ _ HR) in Hc.
    cbn [wstep]. destruct (there w p) eqn:Ht; cbn [negb] in Hc; [|injection Hc as <- <-; split; [exact HR|reflexivity] ].
    destruct (t_at w k p n) as [m0|] eqn:Hm; [injection Hc as <- <-; split; [exact HR|reflexivity]|].
    injection Hc as <- <-. cbn [fst snd]. split; [|reflexivity].
    apply (R_weq _ (t_put w k p (fun n' => if beqb n' n then Some m else t_at w k p n'))).
    - apply (R_put c w k p _ (memplace bcmp n m)); [exact HR|exact Ht|reflexivity|]. intros mm Hs Hf.
      unfold memplace. rewrite (Hf n), Hm. split; [apply msorted_insert; [apply bcmp_eq|apply bcmp_sym|apply bcmp_trans|exact Hs]|].
      intros n'. destruct (beq_dec n' n) as [->|Hn].
      + apply mfind_insert_same. intros. apply bcmp_eq.
      + rewrite mfind_insert_other; [apply Hf|apply bcmp_eq|exact Hn].
    - intros q. unfold t_put, t_set. destruct (w q) as [t|] eqn:Hw; [|exact I]. intros k' n'.
      destruct (path_eqb_spec q p) as [->|]; cbn [andb]; [|reflexivity].
      destruct (kind_eqb_spec k' k) as [->|]; cbn [andb]; [|reflexivity].
      unfold t_at. rewrite Hw. reflexivity.
  Qed.

  Lemma drop_table_R c w k p n : R c w -> R (drop_table k c p n) (fst (wstep w (TDrop k p n))).
  Proof.
    intros HR. unfold drop_table. rewrite (R_texists _ w _ _ _ HR). cbn [wstep fst].
    destruct (t_at w k p n) as [m0|] eqn:Hm.
    - assert (Ht : there w p = true) by (unfold t_at in Hm; unfold there; destruct (w p); [reflexivity|discriminate]).
      apply (R_weq _ (t_put w k p (fun n' => if beqb n' n then None else t_at w k p n'))).
      + apply (R_put c w k p _ (merase bcmp n)); [exact HR|exact Ht|reflexivity|]. intros mm Hs Hf.
        split; [apply msorted_erase; exact Hs|]. intros n'. destruct (beq_dec n' n) as [->|Hn].
        * apply mfind_erase_same; [apply bcmp_eq|exact Hs].
        * rewrite mfind_erase_other; [apply Hf|apply bcmp_eq|exact Hn].
      + intros q. unfold t_put, t_set. destruct (w q) as [t|] eqn:Hw; [|exact I]. intros k' n'.
        destruct (path_eqb_spec q p) as [->|]; cbn [andb]; [|reflexivity].
        destruct (kind_eqb_spec k' k) as [->|]; cbn [andb]; [|reflexivity].
        unfold t_at. rewrite Hw. reflexivity.
    - apply (R_weq _ w _ HR). intros q. unfold t_set. destruct (w q) as [t|] eqn:Hw; [|exact I]. intros k' n'.
      destruct (path_eqb_spec q p) as [->|]; cbn [andb]; [|reflexivity].
      destruct (kind_eqb_spec k' k) as [->|]; cbn [andb]; [|reflexivity].
      destruct (beq_dec n' n) as [->|]; [|reflexivity]. unfold t_at in Hm. rewrite Hw in Hm. exact Hm.
  Qed.

  Lemma rename_table_R c w k p n n' c' e : R c w -> rename_table k c p n n' = (c', e) ->
    R c' (fst (wstep w (TRename k p n n'))) /\ e = snd (wstep w (TRename k p n n')).
  Proof.
    intros HR Hc. unfold rename_table in Hc. rewrite !(R_texists _ w _ _ _ HR) in Hc. cbn [wstep].
    destruct (t_at w k p n) as [m|] eqn:Hm; cbn [negb] in Hc; [|injection Hc as <- <-; split; [exact HR|reflexivity] ].
    destruct (t_at w k p n') as [m0|] eqn:Hm'; [injection Hc as <- <-; split; [exact HR|reflexivity]|].
    injection Hc as <- <-. cbn [fst snd]. split; [|reflexivity].
    assert (Ht : there w p = true) by (unfold t_at in Hm; unfold there; destruct (w p); [reflexivity|discriminate]).
    assert (Hnn : n' <> n) by (intros ->; congruence).
    set (g := fun mm : list (list byte * M) => match mfind bcmp n mm with Some m => memplace bcmp n' m (merase bcmp n mm) | None => mm end).
    apply (R_weq _ (t_put w k p (fun x => if beqb x n' then Some m else if beqb x n then None else t_at w k p x))).
    { apply (R_put c w k p _ g); [exact HR|exact Ht| |].
      { intros i t Hw [_ [_ HS]]. unfold g. rewrite HS. unfold t_at in Hm. rewrite Hw in Hm. rewrite Hm. reflexivity. }
      intros mm Hs Hf. unfold g. rewrite (Hf n), Hm.
      assert (He : msorted bcmp (merase bcmp n mm)) by (apply msorted_erase; exact Hs).
      assert (Hfe : mfind bcmp n' (merase bcmp n mm) = None).
      { rewrite mfind_erase_other; [rewrite Hf; exact Hm'|apply bcmp_eq|exact Hnn]. }
      unfold memplace. rewrite Hfe. split; [apply msorted_insert; [apply bcmp_eq|apply bcmp_sym|apply bcmp_trans|exact He]|].
      intros x. destruct (beq_dec x n') as [->|Hx].
      - apply mfind_insert_same. intros. apply bcmp_eq.
      - rewrite mfind_insert_other; [|apply bcmp_eq|exact Hx]. destruct (beq_dec x n) as [->|Hxn].
        + apply mfind_erase_same; [apply bcmp_eq|exact Hs].
        + rewrite mfind_erase_other; [apply Hf|apply bcmp_eq|exact Hxn]. }
    intros q. unfold t_put, t_set. destruct (w q) as [t|] eqn:Hw; [|exact I]. intros k' x.
    destruct (path_eqb_spec q p) as [->|]; cbn [andb]; [|reflexivity].
    destruct (kind_eqb_spec k' k) as [->|]; cbn [andb]; [|reflexivity].
    unfold t_at. rewrite Hw. reflexivity.
  Qed.

  (** A history. *)
  Lemma step_R c w o c' x : R c w -> cstep c o = (c', x) -> fst x <> Thrown ->
    R c' (fst (wstep w o)) /\ snd x = snd (wstep w o).
  Proof.
    intros HR Hs Hx. destruct o as [p|p|k p n m|k p n|k p n n']; cbn [cstep] in Hs.
    - destruct (create_namespace c p) as [c1 y] eqn:Hc. injection Hs as <- <-. cbn in Hx.
      split; [|reflexivity]. exact (create_R _ _ _ _ _ HR Hc Hx).
    - destruct (drop_namespace c p) as [c1 y] eqn:Hc. injection Hs as <- <-.
      split; [|reflexivity]. exact (proj1 (drop_R _ _ _ _ _ HR Hc)).
    - destruct (create_table k c p n m) as [c1 e] eqn:Hc. injection Hs as <- <-. exact (create_table_R _ _ _ _ _ _ _ _ HR Hc).
    - injection Hs as <- <-. split; [apply drop_table_R, HR|reflexivity].
    - destruct (rename_table k c p n n') as [c1 e] eqn:Hc. injection Hs as <- <-. exact (rename_table_R _ _ _ _ _ _ _ _ HR Hc).
  Qed.

  Lemma run_R h : forall c w c' xs, R c w -> crun c h = (c', xs) -> calm xs ->
    R c' (fst (wrun w h)) /\ map snd xs = snd (wrun w h).
  Proof.
    induction h as [|o h IH]; intros c w c' xs HR Hr Hx; cbn in Hr.
    - injection Hr as <- <-. split; [exact HR|reflexivity].
    - destruct (cstep c o) as [c1 x] eqn:Hs. destruct (crun c1 h) as [c2 ys] eqn:Hh. injection Hr as <- <-.
      inversion Hx as [|? ? Hx1 Hx2]; subst. destruct (step_R _ _ _ _ _ HR Hs Hx1) as [HR1 E1].
      cbn [wrun]. destruct (wstep w o) as [w1 e]. cbn [fst snd] in *.
      destruct (IH _ _ _ _ HR1 Hh Hx2) as [HR2 E2]. destruct (wrun w1 h) as [w2 es]. cbn [fst snd] in *.
      split; [exact HR2|]. cbn. congruence.
  Qed.

  (** When only leaves are dropped, every namespace above one that is there is there too,
      and nothing is thrown. *)
  Definition rooted w : Prop := forall p e, p <> [] -> there w (p ++ [e]) = true -> there w p = true.

  Lemma rooted_app w : rooted w -> forall l p, p <> [] -> there w (p ++ l) = true -> there w p = true.
  Proof.
    intros Hr l. induction l as [|e l IH] using rev_ind; intros p Hp H; [rewrite app_nil_r in H; exact H|].
    rewrite app_assoc in H. apply IH; [exact Hp|]. apply (Hr (p ++ l) e); [destruct p; [contradiction|discriminate]|exact H].
  Qed.

  Lemma there_create w p q : there (w_create w p) q = there w q || adds w p q.
  Proof. unfold there, w_create. destruct (adds w p q); [rewrite orb_true_r; reflexivity|rewrite orb_false_r; reflexivity]. Qed.

  Lemma rooted_create w p : rooted w -> rooted (w_create w p).
  Proof.
    intros Hr. induction p as [|x p IH] using rev_ind; intros q e Hq; rewrite !there_create.
    - rewrite !adds_nil, !orb_false_r. apply Hr, Hq.
    - rewrite !adds_snoc. destruct (there w (p ++ [x])) eqn:Ht; cbn [negb andb]; [rewrite !orb_false_r; apply Hr, Hq|].
      specialize (IH q e Hq). rewrite !there_create in IH. intros H. apply orb_true_iff in H.
      apply orb_true_iff. destruct H as [H|H].
      + left. apply (Hr q e Hq H).
      + apply orb_true_iff in H. destruct H as [H|H].
        * destruct (path_eqb_spec (q ++ [e]) (p ++ [x])) as [E|]; [|discriminate]. apply app_inj_tail in E. destruct E as [-> ->].
          destruct (there w p) eqn:Hp; [left; reflexivity|right]. rewrite orb_true_iff. right.
          destruct p as [|y p'] using rev_ind; [contradiction|]. rewrite adds_snoc, Hp, path_eqb_refl. reflexivity.
        * rewrite H, orb_true_r in IH. specialize (IH eq_refl). apply orb_true_iff in IH. destruct IH as [IH|IH]; [left; exact IH|].
          right. rewrite IH. apply orb_true_r.
  Qed.

  Lemma there_weq w w' : (forall p, there w' p = there w p) -> rooted w -> rooted w'.
  Proof. intros HE Hr p e Hp. rewrite !HE. apply Hr, Hp. Qed.

  Lemma there_set w k p n m q : there (t_set w k p n m) q = there w q.
  Proof. unfold there, t_set. destruct (w q); reflexivity. Qed.

  Lemma rooted_step w o : rooted w ->
    match o with NsDrop p => forall q, below p q -> there w q = false | _ => True end ->
    rooted (fst (wstep w o)).
  Proof.
    intros Hr Ho. destruct o as [p|p|k p n m|k p n|k p n n']; cbn [wstep].
    - apply rooted_create, Hr.
    - intros q e Hq. cbn [fst]. unfold there, w_drop. destruct (path_eqb_spec (q ++ [e]) p) as [|H1]; [discriminate|].
      destruct (path_eqb_spec q p) as [->|H2].
      + intros H. exfalso. specialize (Ho (p ++ [e]) ltac:(exists e, []; reflexivity)). unfold there in Ho. congruence.
      + apply Hr, Hq.
    - destruct (there w p); [|exact Hr]. destruct (t_at w k p n); [exact Hr|]. cbn. apply (there_weq w); [|exact Hr].
      intros q. apply there_set.
    - cbn. apply (there_weq w); [|exact Hr]. intros q. apply there_set.
    - destruct (t_at w k p n); [|exact Hr]. destruct (t_at w k p n'); [exact Hr|]. cbn. apply (there_weq w); [|exact Hr].
      intros q. rewrite !there_set. reflexivity.
  Qed.

  Lemma R_lk c w p : R c w -> p <> [] -> (LKC c p <> [] <-> there w p = true).
  Proof.
    intros HR Hp. pose proof (R_at _ _ HR p Hp) as HA. unfold Rns in HA. unfold there. destruct (w p).
    - destruct HA as [v [i [-> _]]]. split; [reflexivity|discriminate].
    - rewrite HA. split; [contradiction|discriminate].
  Qed.

  Lemma ns_insert_done c w p e : R c w -> rooted w -> snd (ns_insert c (p ++ [e])) = Done.
  Proof.
    intros HR Hr. unfold ns_insert.
    pose proof (insert_ok_closed bltb nolive s_irr s_trans s_tot c p e no_tables (R_wf _ _ HR)) as H.
    destruct (insert bltb c (p ++ [e]) no_tables) as [c1 ok]. cbn [snd] in *. rewrite H; [reflexivity|].
    intros e1 tl HL. assert (Hn : forall l, p ++ e1 :: l <> []) by (intros l; destruct p; discriminate).
    apply (R_lk c w _ HR (Hn _)) in HL. apply (R_lk c w _ HR (Hn [])).
    apply (rooted_app w Hr tl); [apply Hn|]. rewrite <- app_assoc. exact HL.
  Qed.

  Lemma insert_top_ok c : snd (insert bltb c [] (no_tables : info M)) = true.
  Proof. unfold insert. cbn. apply orb_true_r. Qed.

  Lemma create_rev_done rp : rp <> [] -> forall c w, R c w -> rooted w -> snd (create_rev c rp) = Done.
  Proof.
    induction rp as [|e rq IH]; [contradiction|]. intros _ c w HR Hr. cbn [create_rev].
    change (rev (e :: rq)) with (rev rq ++ [e]).
    destruct (ns_exists c (rev rq ++ [e])); [reflexivity|].
    destruct rq as [|e2 rq']; [exact (ns_insert_done c w [] e HR Hr)|]. set (rq := e2 :: rq') in *.
    destruct (ns_exists c (rev rq)); [exact (ns_insert_done c w _ e HR Hr)|].
    specialize (IH ltac:(discriminate) c w HR Hr). destruct (create_rev c rq) as [c1 x1] eqn:Hc. cbn in IH. subst x1.
    pose proof (create_rev_R _ _ _ _ _ HR Hc ltac:(discriminate)) as HR1.
    apply (ns_insert_done c1 _ (rev rq) e HR1). apply rooted_create, Hr.
  Qed.

  Lemma create_done c w p : R c w -> rooted w -> snd (create_namespace c p) = Done.
  Proof.
    intros HR Hr. unfold create_namespace. destruct (rev p) as [|e rq] eqn:Hp.
    - cbn [create_rev]. cbn [rev ns_exists]. unfold ns_insert. pose proof (insert_top_ok c) as H.
      destruct (insert bltb c [] no_tables) as [c1 ok]. cbn [snd] in *. rewrite H. reflexivity.
    - apply (create_rev_done (e :: rq)) with (w := w); [discriminate|exact HR|exact Hr].
  Qed.

  Lemma leaf_run h : forall c w, R c w -> rooted w -> leaf_drops w h -> calm (snd (crun c h)).
  Proof.
    induction h as [|o h IH]; intros c w HR Hr Hl; [constructor|]. destruct Hl as [Hl1 Hl2]. cbn [crun].
    destruct (cstep c o) as [c1 x] eqn:Hs. assert (Hx : fst x <> Thrown).
    { destruct o as [p|p|k p n m|k p n|k p n n']; cbn [cstep] in Hs.
      - pose proof (create_done c w p HR Hr) as HD.
        destruct (create_namespace c p) as [c2 y]. cbn in HD. injection Hs as <- <-. cbn. congruence.
      - destruct (drop_namespace c p) as [c2 y] eqn:Hd. injection Hs as <- <-. exact (proj2 (proj2 (drop_R _ _ _ _ _ HR Hd))).
      - destruct (create_table k c p n m). injection Hs as <- <-. discriminate.
      - injection Hs as <- <-. discriminate.
      - destruct (rename_table k c p n n'). injection Hs as <- <-. discriminate. }
    destruct (step_R _ _ _ _ _ HR Hs Hx) as [HR1 _].
    specialize (IH c1 (fst (wstep w o)) HR1 (rooted_step _ _ Hr Hl1) Hl2).
    destruct (crun c1 h) as [c2 ys]. constructor; assumption.
  Qed.

  Lemma leaf_rooted h : forall w, rooted w -> leaf_drops w h -> rooted (fst (wrun w h)).
  Proof.
    induction h as [|o h IH]; intros w Hr Hl; [exact Hr|]. destruct Hl as [Hl1 Hl2]. cbn [wrun].
    pose proof (rooted_step _ _ Hr Hl1) as Hr1. destruct (wstep w o) as [w1 e]. cbn [fst] in *.
    specialize (IH w1 Hr1 Hl2). destruct (wrun w1 h). exact IH.
  Qed.
  Lemma rooted_empty : rooted (empty_world : world M).
  Proof. intros p e _ H. discriminate. Qed.

  (** Children. *)
  Lemma R_children c w p : R c w -> there w p = true ->
    forall q, In q (list_child_namespaces c p) <-> exists e tl, q = p ++ [e] /\ there w (p ++ e :: tl) = true.
  Proof.
    intros HR Ht q. assert (Hp : p <> []) by (intros ->; unfold there in Ht; rewrite (R_top _ _ HR) in Ht; discriminate).
    unfold list_child_namespaces. rewrite (R_exists _ _ _ HR), Ht. rewrite in_map_iff.
    destruct (next_spec bltb s_irr s_tot c p (R_wf _ _ HR)) as [_ HN]. split.
    - intros [e [<- He]]. apply HN in He. destruct He as [tl He]. exists e, tl. split; [reflexivity|].
      apply (R_lk c w _ HR); [destruct p; discriminate|exact He].
    - intros [e [tl [-> He]]]. exists e. split; [reflexivity|]. apply HN. exists tl.
      apply (R_lk c w _ HR); [destruct p; discriminate|exact He].
  Qed.

  Lemma list_children_none c w p : R c w -> there w p = false -> list_child_namespaces c p = [].
  Proof. intros HR Ht. unfold list_child_namespaces. rewrite (R_exists _ _ _ HR), Ht. reflexivity. Qed.
  Lemma children_nodup c w p : R c w -> NoDup (list_child_namespaces c p).
  Proof.
    intros HR. unfold list_child_namespaces. destruct (ns_exists c p); [|constructor].
    destruct (next_spec bltb s_irr s_tot c p (R_wf _ _ HR)) as [HS _]. revert HS. generalize (next_elements bltb c p).
    intros l Hs. apply FinFun.Injective_map_NoDup; [intros a b E; apply app_inj_tail in E; apply E|].
    induction l as [|a l IH]; [constructor|]. destruct Hs as [Ha Hs]. constructor; [|apply IH, Hs].
    intros Hin. specialize (Ha a Hin). rewrite s_irr in Ha. discriminate.
  Qed.

  (** Listing tables. *)
  Lemma R_list c w p : R c w -> forall n, In n (list_tables c p) <-> t_at w Regular p n <> None.
  Proof.
    intros HR n. unfold list_tables, t_at. pose proof (R_info c w p HR) as HI. destruct (w p) as [t|].
    - destruct HI as [i [-> [_ [_ HS]]]]. rewrite <- (HS Regular n). cbn [get_map].
      rewrite <- (mmem_true bcmp bcmp_eq n (tables i)). unfold mmem.
      destruct (mfind bcmp n (tables i)); split; congruence.
    - rewrite HI. cbn. split; [contradiction|congruence].
  Qed.
  Lemma R_list_nodup c w p : R c w -> NoDup (list_tables c p).
  Proof.
    intros HR. unfold list_tables. pose proof (R_info c w p HR) as HI. destruct (w p) as [t|].
    - destruct HI as [i [-> [HS _]]]. apply (msorted_nodup bcmp bcmp_eq). exact HS.
    - rewrite HI. constructor.
  Qed.
  Lemma R_schema c w p n m : R c w -> t_at w Regular p n = Some m -> get_table_schema c p n = Ok m.
  Proof.
    intros HR Ht. unfold get_table_schema, t_at in *. pose proof (R_info c w p HR) as HI. destruct (w p) as [t|]; [|discriminate].
    destruct HI as [i [-> [_ [_ HS]]]]. cbn. rewrite <- (HS Regular n) in Ht. cbn in Ht. rewrite Ht. reflexivity.
  Qed.
  Lemma R_format c w p n : R c w -> there w p = true ->
    get_table_format c p n =
      Ok (match t_at w Regular p n, t_at w Computing p n with
          | Some _, _ => Columns
          | None, Some _ => Documents
          | None, None => Undefined
          end).
  Proof.
    intros HR Ht. unfold get_table_format, t_at. unfold there in Ht. pose proof (R_info c w p HR) as HI. destruct (w p) as [t|]; [|discriminate].
    destruct HI as [i [-> [_ [_ HS]]]]. cbn. unfold mmem. rewrite <- (HS Regular n), <- (HS Computing n). cbn [get_map].
    destruct (mfind bcmp n (tables i)), (mfind bcmp n (computing i)); reflexivity.
  Qed.

  (** What a history without drops of inner namespaces leaves. *)
  Lemma begins_app p q : begins p q = true <-> exists l, q = p ++ l.
  Proof.
    unfold begins. destruct (path_eqb_spec p (firstn (length p) q)) as [E|E]; split; try discriminate.
    - intros _. exists (skipn (length p) q). rewrite E at 1. symmetry. apply firstn_skipn.
    - reflexivity.
    - intros [l ->]. exfalso. apply E. rewrite firstn_app, Nat.sub_diag, firstn_all. cbn. rewrite app_nil_r. reflexivity.
  Qed.

  Lemma adds_rooted w p q : rooted w -> adds w p q = negb (path_eqb q []) && begins q p && negb (there w q).
  Proof.
    intros Hr. unfold adds. destruct (path_eqb_spec q []) as [->|Hq]; [reflexivity|]. cbn [negb andb].
    destruct (begins q p) eqn:Hb; [|reflexivity]. cbn [andb]. apply begins_app in Hb. destruct Hb as [l ->].
    unfold between. rewrite app_length. replace (S (length q + length l) - length q) with (S (length l)) by lia.
    cbn [seq map forallb]. rewrite firstn_app, Nat.sub_diag, firstn_all. cbn [firstn]. rewrite app_nil_r.
    destruct (there w q) eqn:Ht; [reflexivity|]. cbn [negb andb]. apply forallb_forall. intros r Hin.
    apply in_map_iff in Hin. destruct Hin as [n [<- Hn]]. apply in_seq in Hn. rewrite firstn_app, firstn_all2 by lia.
    destruct (there w (q ++ firstn (n - length q) l)) eqn:E; [|reflexivity].
    apply (rooted_app w Hr) in E; [congruence|exact Hq].
  Qed.

  Lemma wrun_snoc h : forall w o, fst (wrun w (h ++ [o])) = fst (wstep (fst (wrun w h)) o).
  Proof.
    induction h as [|a h IH]; intros w o; cbn.
    - destruct (wstep w o). reflexivity.
    - destruct (wstep w a) as [w1 e]. specialize (IH w1 o). destruct (wrun w1 (h ++ [o])), (wrun w1 h). exact IH.
  Qed.
  Lemma leaf_drops_app h1 : forall w h2, leaf_drops w (h1 ++ h2) <-> leaf_drops w h1 /\ leaf_drops (fst (wrun w h1)) h2.
  Proof.
    induction h1 as [|a h IH]; intros w h2; cbn; [tauto|]. rewrite IH. destruct (wstep w a) as [w1 e]. cbn [fst].
    destruct (wrun w1 h). cbn [fst]. tauto.
  Qed.
  Lemma wstep_there w o q : rooted w ->
    there (fst (wstep w o)) q =
      match o with
      | NsCreate p => there w q || negb (path_eqb q []) && begins q p
      | NsDrop p => there w q && negb (path_eqb q p)
      | _ => there w q
      end.
  Proof.
    intros Hr. destruct o as [p|p|k p n m|k p n|k p n n']; cbn [wstep fst].
    - rewrite there_create, (adds_rooted w p q Hr). destruct (there w q); cbn; [reflexivity|rewrite andb_true_r; reflexivity].
    - unfold there, w_drop. destruct (path_eqb q p); [rewrite andb_false_r; reflexivity|rewrite andb_true_r; reflexivity].
    - destruct (there w p); [|reflexivity]. destruct (t_at w k p n); [reflexivity|]. apply there_set.
    - apply there_set.
    - destruct (t_at w k p n); [|reflexivity]. destruct (t_at w k p n'); [reflexivity|]. cbn. rewrite !there_set. reflexivity.
  Qed.

  Lemma history_there h : leaf_drops empty_world h -> forall p,
    there (fst (wrun (empty_world : world M) h)) p = true <->
    p <> [] /\ exists h1 l h2, h = h1 ++ NsCreate (p ++ l) :: h2 /\ ~ In (NsDrop p) h2.
  Proof.
    induction h as [|o h IH] using rev_ind; intros Hl p.
    - cbn. split; [discriminate|]. intros [_ [h1 [l [h2 [H _]]]]]. destruct h1; discriminate.
    - apply leaf_drops_app in Hl. destruct Hl as [Hl _]. specialize (IH Hl p).
      pose proof (leaf_rooted h _ rooted_empty Hl) as Hr. rewrite wrun_snoc, (wstep_there _ o p Hr).
      (* earlier creations *)
      assert (HK : (exists h1 l h2, h ++ [o] = h1 ++ NsCreate (p ++ l) :: h2 /\ ~ In (NsDrop p) h2) <->
                   (exists l, o = NsCreate (p ++ l)) \/
                   (o <> NsDrop p /\ exists h1 l h2, h = h1 ++ NsCreate (p ++ l) :: h2 /\ ~ In (NsDrop p) h2)).
      { split.
        - intros [h1 [l [h2 [HE Hn]]]]. destruct h2 as [|b h2'] using rev_ind.
          + apply app_inj_tail in HE. destruct HE as [_ ->]. left. exists l. reflexivity.
          + change (h1 ++ NsCreate (p ++ l) :: h2' ++ [b]) with (h1 ++ (NsCreate (p ++ l) :: h2') ++ [b]) in HE.
            rewrite app_assoc in HE. apply app_inj_tail in HE. destruct HE as [-> ->]. right. rewrite in_app_iff in Hn. split.
            * intros ->. apply Hn. right. left. reflexivity.
            * exists h1, l, h2'. split; [reflexivity|]. intros H. apply Hn. left. exact H.
        - intros [[l ->]|[Ho [h1 [l [h2 [-> Hn]]]]]].
          + exists h, l, []. split; [reflexivity|]. intros [].
          + exists h1, l, (h2 ++ [o]). split; [rewrite <- app_assoc; reflexivity|]. rewrite in_app_iff. intros [H|[H|[]]]; [apply Hn, H|apply Ho, H]. }
      rewrite HK. clear HK. destruct o as [q|q|k q n m|k q n|k q n n'].
      + rewrite orb_true_iff, IH, andb_true_iff, negb_true_iff, begins_app. destruct (path_eqb_spec p []) as [E|E]; split.
        * intros [[H _]|[H _]]; [contradiction|discriminate].
        * intros [H _]; contradiction.
        * intros [[_ H]|[_ [l ->]]]; split; try exact E; [right; split; [discriminate|exact H]|left; exists l; reflexivity].
        * intros [_ [[l H]|[_ H]]]; [injection H as ->; right; split; [reflexivity|exists l; reflexivity]|left; split; assumption].
      + rewrite andb_true_iff, IH, negb_true_iff. destruct (path_eqb_spec p q) as [->|E]; split.
        * intros [_ H]; discriminate.
        * intros [_ [[l H]|[H _]]]; [discriminate|contradiction].
        * intros [[H1 H2] _]. split; [exact H1|right]. split; [congruence|exact H2].
        * intros [H1 [[l H]|[_ H]]]; [discriminate|]. split; [split; assumption|reflexivity].
      + rewrite IH. split; [intros [H1 H2]; split; [exact H1|right; split; [discriminate|exact H2] ]|].
        intros [H1 [[l H]|[_ H]]]; [discriminate|split; assumption].
      + rewrite IH. split; [intros [H1 H2]; split; [exact H1|right; split; [discriminate|exact H2] ]|].
        intros [H1 [[l H]|[_ H]]]; [discriminate|split; assumption].
      + rewrite IH. split; [intros [H1 H2]; split; [exact H1|right; split; [discriminate|exact H2] ]|].
        intros [H1 [[l H]|[_ H]]]; [discriminate|split; assumption].
  Qed.

  (** The theorems. *)
  Lemma c33_set h c xs : crun (M := M) empty_trie h = (c, xs) -> calm xs ->
    forall p, ns_exists c p = there (fst (wrun empty_world h)) p.
  Proof. intros Hr Hx p. apply R_exists. exact (proj1 (run_R h _ _ _ _ R_empty Hr Hx)). Qed.

  Lemma c33_history h : leaf_drops (empty_world : world M) h ->
    calm (snd (crun empty_trie h)) /\
    forall p, ns_exists (fst (crun empty_trie h)) p = true <->
      p <> [] /\ exists h1 l h2, h = h1 ++ NsCreate (p ++ l) :: h2 /\ ~ In (NsDrop p) h2.
  Proof.
    intros Hl. pose proof (leaf_run h _ _ R_empty rooted_empty Hl) as Hx. split; [exact Hx|].
    intros p. destruct (crun empty_trie h) as [c xs] eqn:Hr. cbn [fst snd] in *. rewrite (c33_set h c xs Hr Hx p).
    apply history_there, Hl.
  Qed.

  Lemma c33_children h : leaf_drops (empty_world : world M) h ->
    forall p, NoDup (list_child_namespaces (fst (crun empty_trie h)) p) /\
    forall q, In q (list_child_namespaces (fst (crun empty_trie h)) p) <->
      ns_exists (fst (crun empty_trie h)) p = true /\ ns_exists (fst (crun empty_trie h)) q = true /\ exists e, q = p ++ [e].
  Proof.
    intros Hl p. pose proof (leaf_run h _ _ R_empty rooted_empty Hl) as Hx.
    destruct (crun empty_trie h) as [c xs] eqn:Hr. cbn [fst snd] in *.
    pose proof (proj1 (run_R h _ _ _ _ R_empty Hr Hx)) as HR. pose proof (leaf_rooted h _ rooted_empty Hl) as Hro.
    split; [exact (children_nodup c _ p HR)|]. intros q. rewrite !(R_exists _ _ _ HR).
    destruct (there (fst (wrun empty_world h)) p) eqn:Ht.
    - rewrite (R_children _ _ _ HR Ht). split.
      + intros [e [tl [-> He]]]. split; [reflexivity|]. split; [|exists e; reflexivity].
        apply (rooted_app _ Hro tl); [destruct p; discriminate|]. rewrite <- app_assoc. exact He.
      + intros [_ [Hq [e ->]]]. exists e, []. split; [reflexivity|exact Hq].
    - rewrite (list_children_none _ _ _ HR Ht). split; [intros []|intros [H _]; discriminate].
  Qed.

  Lemma c74_tables h c xs : crun (M := M) empty_trie h = (c, xs) -> calm xs ->
    let w := fst (wrun empty_world h) in
    map snd xs = snd (wrun empty_world h) /\
    forall p,
      (forall k n, table_exists k c p n = match t_at w k p n with Some _ => true | None => false end) /\
      (NoDup (list_tables c p) /\ forall n, In n (list_tables c p) <-> t_at w Regular p n <> None) /\
      (forall n m, t_at w Regular p n = Some m -> get_table_schema c p n = Ok m) /\
      (there w p = true -> forall n, get_table_format c p n =
        Ok (match t_at w Regular p n, t_at w Computing p n with
            | Some _, _ => Columns
            | None, Some _ => Documents
            | None, None => Undefined
            end)).
  Proof.
    intros Hr Hx w. destruct (run_R h _ _ _ _ R_empty Hr Hx) as [HR HE]. fold w in HR. split; [exact HE|].
    intros p. split; [intros k n; apply (R_texists c w k p n HR)|]. split; [split; [exact (R_list_nodup c w p HR)|exact (R_list c w p HR)]|].
    split; [intros n m; apply (R_schema c w p n m HR)|]. intros Ht n. apply (R_format c w p n HR Ht).
  Qed.

  Lemma c74_again h p k n : leaf_drops (empty_world : world M) (h ++ [NsDrop p; NsCreate p]) ->
    table_exists k (fst (crun empty_trie (h ++ [NsDrop p; NsCreate p]))) p n = false.
  Proof.
    intros Hl. pose proof (leaf_run _ _ _ R_empty rooted_empty Hl) as Hx.
    destruct (crun empty_trie (h ++ [NsDrop p; NsCreate p])) as [c xs] eqn:Hr. cbn [fst snd] in *.
    pose proof (proj1 (run_R _ _ _ _ _ R_empty Hr Hx)) as HR. rewrite (R_texists _ _ k p n HR).
    change (h ++ [NsDrop p; NsCreate p]) with (h ++ [NsDrop p] ++ [NsCreate p]). rewrite app_assoc, !wrun_snoc.
    cbn [wstep fst]. set (w := fst (wrun empty_world h)). unfold t_at, w_create.
    destruct (adds (w_drop w p) p p); [reflexivity|]. unfold w_drop. rewrite path_eqb_refl. reflexivity.
  Qed.

  (** The result of a drop. *)
  Lemma c33_drop h p : leaf_drops (empty_world : world M) h ->
    let c := fst (crun empty_trie h) in
    snd (drop_namespace c p) = Freed <-> ns_exists c p = true /\ forall q, below p q -> ns_exists c q = false.
  Proof.
    intros Hl c. pose proof (leaf_run h _ _ R_empty rooted_empty Hl) as Hx. unfold c.
    destruct (crun empty_trie h) as [c0 xs] eqn:Hr. cbn [fst snd] in *.
    pose proof (proj1 (run_R h _ _ _ _ R_empty Hr Hx)) as HR.
    destruct (drop_namespace c0 p) as [c1 x] eqn:Hd. destruct (drop_R _ _ _ _ _ HR Hd) as [_ [HF _]]. cbn [snd].
    rewrite HF, (R_exists _ _ _ HR). split; intros [H1 H2]; (split; [exact H1|]); intros q Hq; specialize (H2 q Hq).
    - rewrite (R_exists _ _ _ HR). exact H2.
    - rewrite (R_exists _ _ _ HR) in H2. exact H2.
  Qed.
End Catalog.
