From Verif Require Import Bytes Outcome ExecModel ExecSpec.
Require Import Lia Permutation.
Local Open Scope nat_scope.

(** ** Parts *)
Fixpoint below (o : op) : list op :=
  match o with
  | Nil => []
  | Op _ _ _ _ l r => match r with Nil => below l | _ => (l :: below l) ++ (r :: below r) end
  end.
Definition subs (o : op) : list op := o :: below o.
Fixpoint chain (o : op) : list nat :=
  match o with Nil => [] | Op i _ _ _ l r => i :: match r with Nil => chain l | _ => [] end end.
Fixpoint leaf (o : op) : nat :=
  match o with Nil => 0 | Op i _ a _ l r => if a then i else match r with Nil => leaf l | _ => 0 end end.

Lemma below_spine : forall o, below o = match spine o with Nil => [] | Op _ _ _ _ l r => subs l ++ subs r end.
Proof.
  induction o as [|i t a c l IHl r IHr]; [reflexivity|]. cbn [below spine]. destruct r; [exact IHl | reflexivity].
Qed.
Lemma spine_size : forall o i t a c l r, spine o = Op i t a c l r -> size l + size r < size o.
Proof.
  induction o as [|j u b d l IHl r IHr]; intros i t a c l' r' H; [discriminate H|].
  cbn [spine] in H. destruct r.
  - specialize (IHl _ _ _ _ _ _ H). cbn [size]. lia.
  - injection H as -> -> -> -> -> <-. cbn [size]. lia.
Qed.
Lemma fit_split : forall d i t a c l r, fit d (Op i t a c l r) = true ->
  fit d l = true /\ fit d r = true /\ (r <> Nil -> l <> Nil) /\ (a = true -> l = Nil /\ r = Nil) /\
  (match c with Some k => d k = false | None => True end) /\ (r <> Nil -> same_collection l = true /\ same_collection r = true).
Proof.
  intros d i t a c l r H. cbn [fit] in H. rewrite !Bool.andb_true_iff in H.
  destruct H as [[[[[H1 H2] H3] H4] H5] H6]. repeat split; trivial.
  - intros Hr Hl. subst l. destruct r; [congruence | discriminate H1].
  - subst a. destruct l; [reflexivity | discriminate H2].
  - subst a. destruct l; [|discriminate H2]. destruct r; [reflexivity | discriminate H1].
  - destruct c; [|trivial]. destruct (d n); [discriminate H3 | reflexivity].
  - destruct r; [congruence|]. cbn [is_nil orb] in H4. apply Bool.andb_true_iff in H4. apply H4.
  - destruct r; [congruence|]. cbn [is_nil orb] in H4. apply Bool.andb_true_iff in H4. apply H4.
Qed.
Lemma spine_fit : forall d o i t a c l r, fit d o = true -> spine o = Op i t a c l r ->
  fit d l = true /\ fit d r = true /\ l <> Nil /\ r <> Nil /\ same_collection l = true /\ same_collection r = true.
Proof.
  intros d. induction o as [|j u b e l IHl r IHr]; intros i t a c l' r' F H; [discriminate H|].
  destruct (fit_split _ _ _ _ _ _ _ F) as (Fl & Fr & N1 & _ & _ & S1). cbn [spine] in H. destruct r.
  - apply (IHl _ _ _ _ _ _ Fl H).
  - injection H as -> -> -> -> -> <-. destruct S1 as [S1 S2]; [congruence|]. assert (l' <> Nil) by (apply N1; congruence).
    repeat split; trivial. congruence.
Qed.

Lemma traverse_subs : forall n d o, size o < n -> fit d o = true -> o <> Nil -> forall k rest acc,
  traverse (length (subs o) + k) (o :: rest) acc = traverse k rest (rev (subs o) ++ acc).
Proof.
  induction n as [|n IH]; intros d o Hn F Ho k rest acc; [lia|].
  unfold subs. rewrite below_spine. cbn [length plus traverse].
  destruct o as [|i t a c l r]; [congruence|].
  destruct (spine (Op i t a c l r)) as [|i' t' a' c' l' r'] eqn:E.
  - reflexivity.
  - pose proof (spine_size _ _ _ _ _ _ _ E) as Hs. destruct (spine_fit _ _ _ _ _ _ _ _ F E) as (Fl & Fr & Nl & Nr & _).
    rewrite app_length, <- Nat.add_assoc. rewrite (IH d l') by (trivial; lia). rewrite (IH d r') by (trivial; lia).
    f_equal. cbn [rev]. rewrite rev_app_distr, <- !app_assoc. reflexivity.
Qed.
Lemma subs_size : forall n d o, size o < n -> fit d o = true -> o <> Nil -> length (subs o) <= size o.
Proof.
  induction n as [|n IH]; intros d o Hn F Ho; [lia|].
  unfold subs. rewrite below_spine. destruct (spine o) as [|i' t' a' c' l' r'] eqn:E.
  - destruct o; [congruence|]. cbn [length size]. lia.
  - pose proof (spine_size _ _ _ _ _ _ _ E) as Hs. destruct (spine_fit _ _ _ _ _ _ _ _ F E) as (Fl & Fr & Nl & Nr & _).
    cbn [length]. rewrite app_length. assert (length (subs l') <= size l') by (apply (IH d); trivial; lia).
    assert (length (subs r') <= size r') by (apply (IH d); trivial; lia). lia.
Qed.
Lemma traverse_all : forall d o, fit d o = true -> o <> Nil -> traverse (S (size o)) [o] [] = Ok (rev (subs o)).
Proof.
  intros d o F Ho. pose proof (subs_size (S (size o)) d o (Nat.lt_succ_diag_r _) F Ho) as H.
  replace (S (size o)) with (length (subs o) + (S (size o) - length (subs o))) by lia.
  rewrite (traverse_subs (S (size o)) d o) by (trivial; lia). rewrite app_nil_r.
  destruct (S (size o) - length (subs o)); reflexivity.
Qed.

Lemma chain_spine : forall o, Permutation (chain o ++ match spine o with Nil => [] | Op _ _ _ _ l r => ids l ++ ids r end) (ids o).
Proof.
  induction o as [|i t a c l IHl r IHr]; [reflexivity|]. cbn [chain spine ids]. destruct r.
  - cbn [ids app]. rewrite app_nil_r. apply perm_skip. exact IHl.
  - cbn [app]. reflexivity.
Qed.
Lemma subs_ids : forall n o, size o < n -> Permutation (concat (map chain (subs o))) (ids o).
Proof.
  induction n as [|n IH]; intros o Hn; [lia|].
  unfold subs. rewrite below_spine. cbn [map concat]. eapply Permutation_trans; [|apply chain_spine].
  apply Permutation_app_head. destruct (spine o) as [|i' t' a' c' l' r'] eqn:E; [reflexivity|].
  pose proof (spine_size _ _ _ _ _ _ _ E) as Hs. rewrite map_app, concat_app.
  rewrite (IH l') by lia. rewrite (IH r') by lia. reflexivity.
Qed.
Lemma app_cons_split : forall (A : Type) (u v a b : list A) x, u ++ v = a ++ x :: b ->
  (exists b', u = a ++ x :: b' /\ b = b' ++ v) \/ (exists a', a = u ++ a' /\ v = a' ++ x :: b).
Proof.
  induction u as [|y u IH]; intros v a b x H.
  - right. exists a. split; [reflexivity | exact H].
  - destruct a as [|z a].
    + cbn [app] in H. injection H as -> <-. left. exists u. split; reflexivity.
    + cbn [app] in H. injection H as -> H. destruct (IH _ _ _ _ H) as [(b' & -> & ->) | (a' & -> & ->)].
      * left. exists b'. split; reflexivity.
      * right. exists a'. split; reflexivity.
Qed.
Lemma subs_later : forall n p, size p < n -> forall a o b i t k c l r, subs p = a ++ o :: b -> spine o = Op i t k c l r -> In l b /\ In r b.
Proof.
  induction n as [|n IH]; intros p Hn a o b i t k c l r E Eo; [lia|].
  unfold subs in E. rewrite below_spine in E. destruct a as [|x a].
  - cbn [app] in E. injection E as <- E. rewrite Eo in E. subst b. split; [left; reflexivity|]. right. apply in_or_app. right. left. reflexivity.
  - cbn [app] in E. injection E as <- E. destruct (spine p) as [|i' t' a' c' l' r'] eqn:Ep; [destruct a; discriminate E|].
    pose proof (spine_size _ _ _ _ _ _ _ Ep) as Hs.
    change (subs l' ++ subs r' = a ++ o :: b) in E.
    destruct (app_cons_split _ _ _ _ _ _ E) as [(b' & E1 & ->) | (a1 & -> & E1)].
    + destruct (IH l' ltac:(lia) _ _ _ _ _ _ _ _ _ E1 Eo) as [X Y]. split; apply in_or_app; left; assumption.
    + apply (IH r' ltac:(lia) _ _ _ _ _ _ _ _ _ E1 Eo).
Qed.
Lemma subs_good : forall n d p, size p < n -> fit d p = true -> p <> Nil -> same_collection p = true -> forall o, In o (subs p) ->
  fit d o = true /\ o <> Nil /\ same_collection o = true.
Proof.
  induction n as [|n IH]; intros d p Hn F Np SC o I; [lia|].
  destruct I as [<- | I]; [split; [|split]; trivial|]. rewrite below_spine in I.
  destruct (spine p) as [|i' t' a' c' l' r'] eqn:Ep; [destruct I|].
  pose proof (spine_size _ _ _ _ _ _ _ Ep) as Hs. destruct (spine_fit _ _ _ _ _ _ _ _ F Ep) as (Fl & Fr & Nl & Nr & Sl & Sr).
  apply in_app_or in I. destruct I as [I|I]; [apply (IH d l') | apply (IH d r')]; trivial; lia.
Qed.
Lemma spine_reads : forall o i t a c l r, reads o = true -> spine o = Op i t a c l r -> reads l = true /\ reads r = true.
Proof.
  induction o as [|j u b e l IHl r IHr]; intros i t a c l' r' F H; [discriminate H|].
  cbn [reads] in F. apply andb_prop in F. destruct F as [F F2]. apply andb_prop in F. destruct F as [_ F1].
  cbn [spine] in H. destruct r.
  - apply (IHl _ _ _ _ _ _ F1 H).
  - injection H as -> -> -> -> -> <-. split; assumption.
Qed.
Lemma subs_reads : forall n p, size p < n -> reads p = true -> forall o, In o (subs p) -> reads o = true.
Proof.
  induction n as [|n IH]; intros p Hn F o I; [lia|].
  destruct I as [<- | I]; [trivial|]. rewrite below_spine in I.
  destruct (spine p) as [|i' t' a' c' l' r'] eqn:Ep; [destruct I|].
  pose proof (spine_size _ _ _ _ _ _ _ Ep) as Hs. destruct (spine_reads _ _ _ _ _ _ _ F Ep) as (Fl & Fr).
  apply in_app_or in I. destruct I as [I|I]; [apply (IH l') | apply (IH r')]; trivial; lia.
Qed.
Lemma below_reads : forall p, statement p = true -> forall o, In o (below p) -> reads o = true.
Proof.
  intros p H o I. destruct p as [|i t a c l r]; [destruct I|].
  cbn [statement] in H. apply andb_prop in H. destruct H as [H _]. apply andb_prop in H. destruct H as [H1 H2].
  cbn [below] in I. destruct r.
  - apply (subs_reads (S (size l)) l); [lia | exact H1 | right; exact I].
  - apply in_app_or in I. destruct I as [I|I]; [apply (subs_reads (S (size l)) l) | apply (subs_reads (S (size (Op i0 t0 asks c0 r1 r2))) (Op i0 t0 asks c0 r1 r2))]; trivial; lia.
Qed.

(** ** One part *)
Lemma exec_done : forall st o, done st o = true -> on_execute st o = (st, [], []).
Proof. intros st [|i t a c l r] H; [reflexivity|]. cbn [done] in H. cbn [on_execute]. destruct (st i); try discriminate H. reflexivity. Qed.
Lemma chain_ids : forall o i, In i (chain o) -> In i (ids o).
Proof.
  induction o as [|j t a c l IHl r IHr]; intros i H; [destruct H|]. cbn [chain] in H. cbn [ids]. destruct H as [<- | H]; [left; reflexivity|].
  right. apply in_or_app. destruct r; [left; apply IHl; exact H | destruct H].
Qed.
Definition ready (st : nat -> ostate) (o : op) : Prop :=
  match spine o with Nil => True | Op _ _ _ _ l r => done st l = true /\ done st r = true end.
Definition reqs (o : op) : list request := match o with Op _ TAddIndex _ c _ _ => [CreateIx c] | _ => [] end.
Definition no_index (o : op) : bool := match o with Op _ TAddIndex _ _ _ _ => false | _ => true end.
Lemma done_ext : forall st st' o, (forall i, root o = Some i -> st' i = st i) -> done st' o = done st o.
Proof. intros st st' [|i t a c l r] H; [reflexivity|]. cbn [done]. rewrite (H i eq_refl). reflexivity. Qed.
Lemma spine_ids : forall o j t a c l r, spine o = Op j t a c l r -> forall i, In i (ids l) \/ In i (ids r) -> In i (ids o).
Proof.
  induction o as [|j t a c l IHl r IHr]; intros j' t' a' c' l' r' H i I; [discriminate H|].
  cbn [spine] in H. cbn [ids]. right. apply in_or_app. destruct r.
  - left. apply (IHl _ _ _ _ _ _ H i I).
  - injection H as -> -> -> -> -> <-. exact I.
Qed.
Lemma root_in : forall o i, root o = Some i -> In i (ids o).
Proof. intros [|j t a c l r] i H; [discriminate H|]. injection H as ->. left. reflexivity. Qed.
Lemma ready_upd : forall st i x o, ~ In i (ids o) -> ready st o -> ready (upd st i x) o.
Proof.
  intros st i x o Ni R. unfold ready in *. destruct (spine o) as [|j t a c l r] eqn:E; [trivial|].
  destruct R as [R1 R2]. split.
  - rewrite <- R1. apply done_ext. intros k Hk. unfold upd. destruct (Nat.eqb_spec k i) as [->|]; [|reflexivity].
    exfalso. apply Ni. apply (spine_ids _ _ _ _ _ _ _ E). left. apply root_in. exact Hk.
  - rewrite <- R2. apply done_ext. intros k Hk. unfold upd. destruct (Nat.eqb_spec k i) as [->|]; [|reflexivity].
    exfalso. apply Ni. apply (spine_ids _ _ _ _ _ _ _ E). right. apply root_in. exact Hk.
Qed.
Lemma nodup_op : forall i t a c l r, NoDup (ids (Op i t a c l r)) -> NoDup (ids l) /\ ~ In i (ids l) /\ ~ In i (ids r).
Proof.
  intros i t a c l r H. cbn [ids] in H. apply NoDup_cons_iff in H. destruct H as [H1 H2].
  split; [|split].
  - revert H2. generalize (ids l) (ids r). intros x y. induction x as [|z x IH]; intros H2; [constructor|].
    cbn [app] in H2. apply NoDup_cons_iff in H2. destruct H2 as [H2 H3]. constructor; [|apply IH; exact H3].
    intros I. apply H2. apply in_or_app. left. exact I.
  - intros I. apply H1. apply in_or_app. left. exact I.
  - intros I. apply H1. apply in_or_app. right. exact I.
Qed.
Lemma rev_chain_op : forall i l, map Ran (rev (i :: l)) = map Ran (rev l) ++ [Ran i].
Proof. intros i l. cbn [rev]. rewrite map_app. reflexivity. Qed.

Lemma exec_now : forall d o st, fit d o = true -> NoDup (ids o) -> o <> Nil -> waits o = None ->
  (forall i, In i (chain o) -> st i = Created) -> ready st o -> reads o = true \/ (exists i t a c l r, o = Op i t a c l r /\ reads l = true /\ reads r = true) ->
  exists st', on_execute st o = (st', map Ran (rev (chain o)), reqs o) /\
    (forall i, In i (chain o) -> st' i = Executed) /\ (forall i, ~ In i (chain o) -> st' i = st i).
Proof.
  intros d. induction o as [|i t a c l IHl r IHr]; intros st F N0 NN W C R X; [congruence|].
  assert (Xl : reads l = true /\ reads r = true).
  { destruct X as [X | (i' & t' & a' & c' & l' & r' & X & X1 & X2)].
    - cbn [reads] in X. apply andb_prop in X. destruct X as [X X2]. apply andb_prop in X. destruct X as [_ X1]. split; assumption.
    - injection X as -> -> -> -> -> ->. split; assumption. }
  destruct Xl as [Xl Xr].
  destruct (fit_split _ _ _ _ _ _ _ F) as (Fl & Fr & N1 & A1 & _ & _). destruct (nodup_op _ _ _ _ _ _ N0) as (Nl & Il & Ir).
  cbn [waits] in W. destruct a; [discriminate W|].
  cbn [on_execute]. rewrite (C i (or_introl eq_refl)).
  destruct r as [|i2 t2 a2 c2 l2 r2] eqn:Er.
  - destruct l as [|i1 t1 a1 c1 l1 r1] eqn:El.
    + cbn [on_execute done andb app chain rev map reqs]. eexists. split; [reflexivity|].
      split; intros j Hj; unfold upd.
      * destruct Hj as [<- | []]. rewrite Nat.eqb_refl. reflexivity.
      * destruct (Nat.eqb_spec j i) as [->|]; [exfalso; apply Hj; left; reflexivity | reflexivity].
    + rewrite <- El in *. assert (Nn : l <> Nil) by (rewrite El; congruence).
      destruct (IHl (upd st i Running) Fl Nl Nn W) as (st' & E & D1 & D2).
      * intros j Hj. unfold upd. destruct (Nat.eqb_spec j i) as [->|]; [exfalso; apply Il; apply chain_ids; exact Hj|].
        apply C. right. exact Hj.
      * apply ready_upd; [exact Il|]. unfold ready in *. cbn [spine] in R. exact R.
      * left. exact Xl.
      * rewrite E. assert (Dl : done st' l = true).
        { rewrite El. cbn [done]. rewrite D1; [reflexivity|]. rewrite El. left. reflexivity. }
        rewrite Dl. cbn [on_execute]. rewrite Dl. cbn [done andb].
        assert (Rq : reqs l = []). { rewrite El in Xl |- *. destruct t1; try reflexivity; discriminate Xl. }
        rewrite Rq. cbn [app chain reqs]. rewrite rev_chain_op. eexists. split; [reflexivity|].
        split; intros j Hj; unfold upd.
        -- destruct (Nat.eqb_spec j i) as [->|]; [reflexivity|]. destruct Hj as [Hj|Hj]; [congruence|]. apply D1. exact Hj.
        -- destruct (Nat.eqb_spec j i) as [->|n]; [exfalso; apply Hj; left; reflexivity |].
           rewrite D2 by (intros Hk; apply Hj; right; exact Hk). unfold upd. destruct (Nat.eqb_spec j i); [congruence | reflexivity].
  - rewrite <- Er in *. assert (R0 : done st l = true /\ done st r = true). { unfold ready in R. cbn [spine] in R. rewrite Er in R. rewrite Er. exact R. }
    assert (Rl : done (upd st i Running) l = true).
    { rewrite <- (proj1 R0). apply done_ext. intros k Hk. unfold upd. destruct (Nat.eqb_spec k i) as [->|]; [|reflexivity].
      exfalso. apply Il. apply root_in. exact Hk. }
    assert (Rr : done (upd st i Running) r = true).
    { rewrite <- (proj2 R0). apply done_ext. intros k Hk. unfold upd. destruct (Nat.eqb_spec k i) as [->|]; [|reflexivity].
      exfalso. apply Ir. apply root_in. exact Hk. }
    rewrite (exec_done _ _ Rl), Rl, (exec_done _ _ Rr), Rl, Rr. cbn [andb app].
    assert (Ch : chain (Op i t false c l r) = [i]) by (rewrite Er; reflexivity). rewrite Ch. cbn [rev app map reqs].
    eexists. split; [reflexivity|]. split; intros j Hj; unfold upd.
    + destruct Hj as [<- | []]. rewrite Nat.eqb_refl. reflexivity.
    + destruct (Nat.eqb_spec j i) as [->|]; [exfalso; apply Hj; left; reflexivity | reflexivity].
Qed.

Lemma exec_later : forall d o st k, fit d o = true -> NoDup (ids o) -> waits o = Some k -> (forall i, In i (chain o) -> st i = Created) ->
  reads o = true \/ (exists i t a c l r, o = Op i t a c l r /\ reads l = true /\ reads r = true) -> reqs o = [] ->
  exists st1 st2, on_execute st o = (st1, [Asked (leaf o)], [Find k]) /\ on_execute st1 o = (st2, map Ran (rev (chain o)), []) /\
    done st1 o = false /\ (forall i, In i (chain o) -> st2 i = Executed) /\ (forall i, ~ In i (chain o) -> st2 i = st i /\ st1 i = st i) /\
    (forall i, In i (chain o) -> st1 i = Running \/ st1 i = Waiting).
Proof.
  intros d. induction o as [|i t a c l IHl r IHr]; intros st k F N0 W C X RQ; [discriminate W|].
  assert (Xl : reads l = true /\ reads r = true).
  { destruct X as [X | (i' & t' & a' & c' & l' & r' & X & X1 & X2)].
    - cbn [reads] in X. apply andb_prop in X. destruct X as [X X2]. apply andb_prop in X. destruct X as [_ X1]. split; assumption.
    - injection X as -> -> -> -> -> ->. split; assumption. }
  destruct Xl as [Xl Xr].
  destruct (fit_split _ _ _ _ _ _ _ F) as (Fl & Fr & N1 & A1 & _ & _). destruct (nodup_op _ _ _ _ _ _ N0) as (Nl & Il & Ir).
  cbn [waits] in W. destruct a.
  - destruct (A1 eq_refl) as [-> ->]. injection W as ->. cbn [on_execute]. rewrite (C i (or_introl eq_refl)).
    cbn [done andb app chain rev map leaf]. eexists. eexists. split; [reflexivity|]. unfold upd at 1. rewrite Nat.eqb_refl.
    split; [reflexivity|]. unfold done, upd. rewrite Nat.eqb_refl. split; [reflexivity|]. split; [|split]; intros j Hj.
    + destruct Hj as [<- | []]. rewrite Nat.eqb_refl. reflexivity.
    + destruct (Nat.eqb_spec j i) as [->|]; [exfalso; apply Hj; left; reflexivity | split; reflexivity].
    + destruct Hj as [<- | []]. rewrite Nat.eqb_refl. right. reflexivity.
  - destruct r; [|discriminate W]. clear IHr N1 A1 Fr Ir Xr.
    assert (RQl : reqs l = []). { destruct l as [|i1 t1 a1 c1 l1 r1]; [reflexivity|]. destruct t1; try reflexivity; discriminate Xl. }
    destruct (IHl (upd st i Running) k Fl Nl W) as (st1 & st2 & E1 & E2 & D0 & D1 & D2 & D3).
    + intros j Hj. unfold upd. destruct (Nat.eqb_spec j i) as [->|]; [exfalso; apply Il; apply chain_ids; exact Hj|].
      apply C. right. exact Hj.
    + left. exact Xl.
    + exact RQl.
    + assert (Ci : ~ In i (chain l)) by (intros I; apply Il, chain_ids, I).
      assert (S1 : st1 i = Running). { rewrite (proj2 (D2 i Ci)). unfold upd. rewrite Nat.eqb_refl. reflexivity. }
      assert (Ex : exists st3, on_execute (upd st1 i Running) l = (st3, map Ran (rev (chain l)), []) /\
        (forall j, In j (chain l) -> st3 j = Executed) /\ (forall j, ~ In j (chain l) -> st3 j = upd st1 i Running j)).
      { revert E2 D1 D2 S1 Ci. clear - D3 Fl Nl W D0. revert D3 Fl Nl W. intros.
        assert (G : forall o a b b' ev q, (forall j, a j = b j) -> on_execute a o = (b', ev, q) -> exists b2, on_execute b o = (b2, ev, q) /\ forall j, b2 j = b' j).
        { clear. induction o as [|i t a c l IHl r IHr]; intros u v v' ev q H E.
          - cbn [on_execute] in *. injection E as <- <- <-. exists v. split; [reflexivity|]. intros j. symmetry. apply H.
          - cbn [on_execute] in E |- *. rewrite <- (H i).
            assert (HU : forall x, forall j, upd u i x j = upd v i x j). { intros x j. unfold upd. destruct (j =? i); [reflexivity | apply H]. }
            assert (GO : (let '(s1, e1, q1) := on_execute (upd u i Running) l in
                let '(s2, e2, q2) := if done s1 l then on_execute s1 r else (s1, [], []) in
                if done s2 l && done s2 r
                then if a then (upd s2 i Waiting, e1 ++ e2 ++ [Asked i], q1 ++ q2 ++ [Find c])
                     else (upd s2 i Executed, e1 ++ e2 ++ [Ran i], q1 ++ q2 ++ match t with TAddIndex => [CreateIx c] | _ => [] end)
                else (s2, e1 ++ e2, q1 ++ q2)) = (v', ev, q) ->
              exists b2, (let '(s1, e1, q1) := on_execute (upd v i Running) l in
                let '(s2, e2, q2) := if done s1 l then on_execute s1 r else (s1, [], []) in
                if done s2 l && done s2 r
                then if a then (upd s2 i Waiting, e1 ++ e2 ++ [Asked i], q1 ++ q2 ++ [Find c])
                     else (upd s2 i Executed, e1 ++ e2 ++ [Ran i], q1 ++ q2 ++ match t with TAddIndex => [CreateIx c] | _ => [] end)
                else (s2, e1 ++ e2, q1 ++ q2)) = (b2, ev, q) /\ forall j, b2 j = v' j).
            { clear E. destruct (on_execute (upd u i Running) l) as [[s1 e1] q1] eqn:E1.
              destruct (IHl _ _ _ _ _ (HU Running) E1) as (s1' & E1' & H1). rewrite E1'.
              assert (DE : forall x y o, (forall j, x j = y j) -> done x o = done y o).
              { intros x y [|] Hxy; [reflexivity|]. cbn [done]. rewrite Hxy. reflexivity. }
              rewrite (DE s1' s1 l H1).
              destruct (if done s1 l then on_execute s1 r else (s1, [], [])) as [[s2 e2] q2] eqn:E2.
              assert (E2' : exists s2', (if done s1 l then on_execute s1' r else (s1', [], [])) = (s2', e2, q2) /\ forall j, s2' j = s2 j).
              { destruct (done s1 l).
                - apply (IHr _ _ _ _ _ (fun j => eq_sym (H1 j)) E2).
                - injection E2 as <- <- <-. exists s1'. split; [reflexivity | exact H1]. }
              destruct E2' as (s2' & E2' & H2). rewrite E2'. rewrite (DE s2' s2 l H2), (DE s2' s2 r H2).
              assert (HU2 : forall x, forall j, upd s2' i x j = upd s2 i x j). { intros x j. unfold upd. destruct (j =? i); [reflexivity | apply H2]. }
              destruct (done s2 l && done s2 r); [destruct a|]; intros E; injection E as <- <- <-; eexists; split; try reflexivity; trivial. }
            destruct (u i).
            + apply GO. exact E.
            + apply GO. exact E.
            + injection E as <- <- <-. eexists. split; [reflexivity|]. intros j. symmetry. apply HU.
            + injection E as <- <- <-. exists v. split; [reflexivity|]. intros j. symmetry. apply H. }
        destruct (G l st1 (upd st1 i Running) st2 _ _ ltac:(intros j; unfold upd; destruct (Nat.eqb_spec j i) as [->|]; [exact S1 | reflexivity]) E2)
          as (b2 & Eb & Hb).
        exists b2. split; [exact Eb|]. split; intros j Hj; rewrite Hb.
        - apply D1. exact Hj.
        - rewrite (proj1 (D2 j Hj)). unfold upd at 2. destruct (Nat.eqb_spec j i) as [->|n].
          + unfold upd. rewrite Nat.eqb_refl. reflexivity.
          + rewrite (proj2 (D2 j Hj)). reflexivity. }
      destruct Ex as (st3 & E3 & G1 & G2).
      assert (Nn : l <> Nil) by (intros ->; discriminate W).
      assert (Dl : done st3 l = true). { destruct l; [reflexivity|]. cbn [done]. rewrite G1; [reflexivity | left; reflexivity]. }
      exists st1. eexists. split; [|split; [|split; [|split; [|split]]]].
      * cbn [on_execute]. rewrite (C i (or_introl eq_refl)), E1, D0. cbn [andb]. rewrite D0. cbn [andb app leaf]. reflexivity.
      * cbn [on_execute]. rewrite S1, E3, Dl. cbn [on_execute]. rewrite Dl. cbn [done andb app chain]. rewrite rev_chain_op.
        cbn [reqs] in RQ. destruct t; try discriminate RQ; reflexivity.
      * cbn [done]. rewrite S1. reflexivity.
      * intros j Hj. unfold upd. destruct (Nat.eqb_spec j i) as [->|n]; [reflexivity|].
        destruct Hj as [Hj|Hj]; [congruence|]. apply G1. exact Hj.
      * intros j Hj. assert (j <> i) by (intros ->; apply Hj; left; reflexivity).
        assert (Cj : ~ In j (chain l)) by (intros I; apply Hj; right; exact I).
        destruct (D2 j Cj) as [_ D2']. assert (Ej : upd st i Running j = st j). { unfold upd. destruct (Nat.eqb_spec j i); [congruence | reflexivity]. }
        split; [|rewrite D2'; exact Ej]. unfold upd at 1. destruct (Nat.eqb_spec j i); [congruence|]. rewrite (G2 j Cj).
        unfold upd at 1. destruct (Nat.eqb_spec j i); [congruence|]. rewrite D2'. exact Ej.
      * intros j [<- | Hj]; [left; exact S1 | apply D3; exact Hj].
Qed.

(** ** The order *)
Lemma chains_ids : forall o, concat (map chain (subs o)) = ids o.
Proof.
  induction o as [|i t a c l IHl r IHr]; [reflexivity|]. unfold subs in *. cbn [map concat chain below ids] in *. destruct r.
  - rewrite app_nil_r. cbn [app]. f_equal. exact IHl.
  - cbn [app]. f_equal. change (concat (map chain ((l :: below l) ++ (Op i0 t0 asks c0 r1 r2 :: below (Op i0 t0 asks c0 r1 r2)))) = ids l ++ ids (Op i0 t0 asks c0 r1 r2)).
    rewrite map_app, concat_app. f_equal; [exact IHl | exact IHr].
Qed.
Lemma before_mid : forall i j l x y, before i j l -> before i j (x ++ l ++ y).
Proof.
  intros i j l x y (a & b & c & ->). exists (x ++ a), b, (c ++ y). rewrite <- !app_assoc. cbn [app]. rewrite <- app_assoc. reflexivity.
Qed.
Lemma children_first_mid : forall p l x y, children_first p l -> children_first p (x ++ l ++ y).
Proof.
  induction p as [|i t a c u IHu v IHv]; intros l x y H; [trivial|]. cbn [children_first] in *. destruct H as (H1 & H2 & H3).
  split; [|split; [apply IHu | apply IHv]; assumption]. intros j Hj. apply before_mid. apply H1. exact Hj.
Qed.
Lemma children_first_rev : forall p, children_first p (rev (ids p)).
Proof.
  induction p as [|i t a c u IHu v IHv]; [exact I|].
  assert (EQ : rev (ids (Op i t a c u v)) = (rev (ids v) ++ rev (ids u)) ++ [i]) by (cbn [ids]; rewrite <- rev_app_distr; reflexivity).
  rewrite EQ. clear EQ. cbn [children_first]. split; [|split].
  - intros j [Hj|Hj]; apply root_in in Hj; apply in_rev in Hj; apply in_split in Hj; destruct Hj as (x & y & Hj); rewrite Hj.
    + exists (rev (ids v) ++ x), y, []. rewrite <- !app_assoc. cbn [app]. reflexivity.
    + exists x, (y ++ rev (ids u)), []. repeat (rewrite <- ?app_assoc; cbn [app]). reflexivity.
  - rewrite <- app_assoc. apply children_first_mid. exact IHu.
  - rewrite <- app_assoc. exact (children_first_mid v _ [] _ IHv).
Qed.

(** ** What is seen of a statement *)
Definition evs (o : op) : list event :=
  match waits o with
  | None => map Ran (rev (chain o)) ++ (if changes o then [Wrote] else [])
  | Some _ => Asked (leaf o) :: map Ran (rev (chain o))
  end.
Definition full (p : op) : list event := concat (map evs (rev (subs p))) ++ [Answer (root p)].
Lemma ran_app : forall a b, ran (a ++ b) = ran a ++ ran b.
Proof. intros a b. apply flat_map_app. Qed.
Lemma ran_map : forall l, ran (map Ran l) = l.
Proof. induction l as [|x l IH]; [reflexivity|]. cbn. f_equal. exact IH. Qed.
Lemma ran_evs : forall o, ran (evs o) = rev (chain o).
Proof.
  intros o. unfold evs. destruct (waits o).
  - apply ran_map.
  - rewrite ran_app, ran_map. destruct (changes o); apply app_nil_r.
Qed.
Lemma ran_parts : forall l, ran (concat (map evs (rev l))) = rev (concat (map chain l)).
Proof.
  induction l as [|o l IH]; [reflexivity|]. cbn [rev map concat]. rewrite map_app, concat_app, ran_app, IH, rev_app_distr.
  cbn [map concat]. rewrite app_nil_r, ran_evs. reflexivity.
Qed.
Lemma ran_full : forall p, ran (full p) = rev (ids p).
Proof. intros p. unfold full. rewrite ran_app, ran_parts, chains_ids. apply app_nil_r. Qed.
Lemma answers_app : forall a b, answers (a ++ b) = answers a ++ answers b.
Proof. intros a b. apply flat_map_app. Qed.
Lemma answers_map : forall l, answers (map Ran l) = [].
Proof. induction l as [|x l IH]; [reflexivity|]. exact IH. Qed.
Lemma answers_evs : forall o, answers (evs o) = [].
Proof.
  intros o. unfold evs. destruct (waits o).
  - apply answers_map.
  - rewrite answers_app, answers_map. destruct (changes o); reflexivity.
Qed.
Lemma answers_parts : forall l, answers (concat (map evs l)) = [].
Proof. induction l as [|o l IH]; [reflexivity|]. cbn [map concat]. rewrite answers_app, IH, answers_evs. reflexivity. Qed.
Lemma writes_app : forall a b, writes (a ++ b) = writes a + writes b.
Proof. intros a b. unfold writes. rewrite filter_app. apply app_length. Qed.
Lemma writes_map : forall l, writes (map Ran l) = 0.
Proof. induction l as [|x l IH]; [reflexivity|]. exact IH. Qed.
Lemma writes_evs : forall o, writes (evs o) = match waits o with None => if changes o then 1 else 0 | Some _ => 0 end.
Proof.
  intros o. unfold evs. destruct (waits o).
  - apply writes_map.
  - rewrite writes_app, writes_map. destruct (changes o); reflexivity.
Qed.
Lemma writes_parts : forall l, (forall o, In o l -> changes o = false) -> writes (concat (map evs l)) = 0.
Proof.
  induction l as [|o l IH]; intros H; [reflexivity|]. cbn [map concat]. rewrite writes_app, IH, writes_evs.
  - rewrite (H o (or_introl eq_refl)). destruct (waits o); reflexivity.
  - intros x Hx. apply H. right. exact Hx.
Qed.
Lemma reads_changes : forall o, reads o = true -> changes o = false.
Proof. intros [|i t a c l r] H; [reflexivity|]. destruct t; try reflexivity; discriminate H. Qed.
Lemma writes_full : forall p, statement p = true -> writes (full p) = match waits p with None => if changes p then 1 else 0 | Some _ => 0 end.
Proof.
  intros p SP. unfold full. rewrite writes_app. unfold subs. cbn [rev]. rewrite map_app, concat_app, writes_app.
  rewrite writes_parts.
  - cbn [map concat]. rewrite app_nil_r, writes_evs. cbn [writes filter length]. unfold writes. cbn [filter length]. lia.
  - intros o Ho. apply reads_changes. apply (below_reads p SP). apply in_rev. exact Ho.
Qed.

(** ** One session *)
Definition pend_of (w : world) (s : N) : list (N * request) := filter (fun x => (fst x =? s)%N) (pend w).
Definition frame (w w' : world) (s : N) : Prop := forall s', s' <> s ->
  clients w' s' = clients w s' /\ plans w' s' = plans w s' /\ (forall c, susp w' c s' = susp w c s') /\ pend_of w' s' = pend_of w s' /\ seen w' s' = seen w s'.
Lemma frame_refl : forall w s, frame w w s.
Proof. intros w s s' _. repeat split; reflexivity. Qed.
Lemma frame_trans : forall a b c s, frame a b s -> frame b c s -> frame a c s.
Proof.
  intros a b c s H1 H2 s' Hs. destruct (H1 s' Hs) as (A1 & A2 & A3 & A4 & A5), (H2 s' Hs) as (B1 & B2 & B3 & B4 & B5).
  split; [|split; [|split; [|split]]]; congruence.
Qed.
Lemma filter_same : forall A (s : N) (l : list A), filter (fun x => (fst x =? s)%N) (map (pair s) l) = map (pair s) l.
Proof. induction l as [|x l IH]; [reflexivity|]. cbn. rewrite N.eqb_refl. f_equal. exact IH. Qed.
Lemma filter_other : forall A (s s' : N) (l : list A), s' <> s -> filter (fun x => (fst x =? s')%N) (map (pair s) l) = [].
Proof. induction l as [|x l IH]; intros H; [reflexivity|]. cbn. destruct (N.eqb_spec s s'); [congruence | apply IH; exact H]. Qed.
Lemma map_snd_pair : forall A (s : N) (l : list A), map snd (map (pair s) l) = l.
Proof. induction l as [|x l IH]; [reflexivity|]. cbn. f_equal. exact IH. Qed.
Lemma note_frame : forall w s es qs, frame w (note w s es qs) s.
Proof.
  intros w s es qs s' H. unfold pend_of, seen, note. cbn [clients plans susp pend log].
  rewrite !filter_app, !filter_other, !app_nil_r by exact H. repeat split; reflexivity.
Qed.
Lemma note_pend : forall w s es qs, pend_of (note w s es qs) s = pend_of w s ++ map (pair s) qs.
Proof. intros. unfold pend_of, note. cbn [pend]. rewrite filter_app, filter_same. reflexivity. Qed.
Lemma note_seen : forall w s es qs, seen (note w s es qs) s = seen w s ++ es.
Proof. intros. unfold seen, note. cbn [log]. rewrite filter_app, filter_same, map_app, map_snd_pair. reflexivity. Qed.
Lemma updN_same : forall A (f : N -> A) s x, updN f s x s = x.
Proof. intros. unfold updN. rewrite N.eqb_refl. reflexivity. Qed.
Lemma updN_other : forall A (f : N -> A) s x s', s' <> s -> updN f s x s' = f s'.
Proof. intros. unfold updN. destruct (N.eqb_spec s' s); [congruence | reflexivity]. Qed.
Lemma keep_frame : forall w s p, frame w (keep w s p) s.
Proof.
  intros w s p s' H. unfold pend_of, seen, keep. cbn [clients plans susp pend log]. rewrite updN_other by exact H.
  repeat split; reflexivity.
Qed.
Lemma answer_ok : forall w s r, clients w s = true -> exists w', answer w s r = Ok w' /\ frame w w' s /\ clients w' s = false /\
  plans w' s = plans w s /\ (forall c, susp w' c s = susp w c s) /\ pend w' = pend w /\ seen w' s = seen w s ++ [Answer r].
Proof.
  intros w s r H. unfold answer. rewrite H. eexists. split; [reflexivity|]. cbn [clients plans susp pend].
  split; [|split; [apply updN_same|split; [reflexivity|split; [reflexivity|split; [reflexivity|]]]]].
  - intros s' Hs. unfold pend_of, seen. cbn [clients plans susp pend log]. rewrite updN_other by exact Hs.
    rewrite filter_app. cbn [filter fst]. destruct (N.eqb_spec s s'); [congruence|]. rewrite app_nil_r. repeat split; reflexivity.
  - unfold seen. cbn [log]. rewrite filter_app. cbn [filter fst]. rewrite N.eqb_refl, map_app. reflexivity.
Qed.
Lemma finish_ok : forall w s r, clients w s = true -> exists w', finish w s r = Ok w' /\ frame w w' s /\ clients w' s = false /\
  plans w' s = None /\ (forall c, susp w' c s = susp w c s) /\ pend w' = pend w /\ seen w' s = seen w s ++ [Answer r].
Proof.
  intros w s r H. destruct (answer_ok w s r H) as (w1 & E & F1 & C1 & P1 & S1 & Q1 & L1).
  unfold finish. rewrite E. cbn [rbind]. eexists. split; [reflexivity|]. cbn [clients plans susp pend].
  split; [|split; [exact C1|split; [apply updN_same|split; [exact S1|split; [exact Q1|]]]]].
  - intros s' Hs. destruct (F1 s' Hs) as (A1 & A2 & A3 & A4 & A5). unfold pend_of, seen in *. cbn [clients plans susp pend log].
    rewrite updN_other by exact Hs. split; [|split; [|split; [|split]]]; assumption.
  - unfold seen in *. cbn [log]. exact L1.
Qed.
Lemma suspend_ok : forall w c s o, susp w c s = None -> frame w (suspend w c s o) s /\ susp (suspend w c s o) c s = Some o /\
  (forall k, k <> c -> susp (suspend w c s o) k s = susp w k s).
Proof.
  intros w c s o H. unfold suspend. rewrite H. cbn [susp]. split; [|split].
  - intros s' Hs. unfold pend_of, seen. cbn [clients plans susp pend log]. split; [|split; [|split; [|split]]]; try reflexivity.
    intros k. unfold updN. destruct (N.eqb_spec k c) as [->|]; [|reflexivity]. destruct (N.eqb_spec s' s); [congruence | reflexivity].
  - rewrite !updN_same. reflexivity.
  - intros k Hk. rewrite updN_other by exact Hk. reflexivity.
Qed.
Lemma unsuspend_ok : forall w c s, frame w (unsuspend w c s) s /\ susp (unsuspend w c s) c s = None /\
  (forall k, k <> c -> susp (unsuspend w c s) k s = susp w k s).
Proof.
  intros w c s. unfold unsuspend. cbn [susp]. split; [|split].
  - intros s' Hs. unfold pend_of, seen. cbn [clients plans susp pend log]. split; [|split; [|split; [|split]]]; try reflexivity.
    intros k. unfold updN. destruct (N.eqb_spec k c) as [->|]; [|reflexivity]. destruct (N.eqb_spec s' s); [congruence | reflexivity].
  - rewrite !updN_same. reflexivity.
  - intros k Hk. rewrite updN_other by exact Hk. reflexivity.
Qed.

(** ** The parts, one after the other *)
Definition inv (p : op) (dn stk : list op) (st : nat -> ostate) : Prop :=
  rev (subs p) = dn ++ stk /\ (forall o, In o dn -> forall i, In i (chain o) -> st i = Executed) /\
  (forall o, In o stk -> forall i, In i (chain o) -> st i = Created).
Lemma distinct_nodup : forall l, distinct l = true -> NoDup l.
Proof.
  induction l as [|x l IH]; intros H; [constructor|]. cbn [distinct] in H. apply andb_prop in H. destruct H as [H1 H2].
  constructor; [|apply IH; exact H2]. intros I. apply Bool.negb_true_iff in H1.
  assert (existsb (Nat.eqb x) l = true) by (apply existsb_exists; exists x; split; [exact I | apply Nat.eqb_refl]). congruence.
Qed.
Lemma NoDup_app_parts : forall A (x y : list A), NoDup (x ++ y) -> NoDup x /\ NoDup y /\ (forall i, In i x -> ~ In i y).
Proof.
  induction x as [|z x IH]; intros y H; [split; [constructor|split; [exact H|intros i []]]|].
  cbn [app] in H. apply NoDup_cons_iff in H. destruct H as [H1 H2]. destruct (IH y H2) as (A1 & A2 & A3). split; [|split].
  - constructor; [|exact A1]. intros I. apply H1. apply in_or_app. left. exact I.
  - exact A2.
  - intros i [<- | I]; [|apply A3; exact I]. intros J. apply H1. apply in_or_app. right. exact J.
Qed.
Lemma subs_nodup : forall n p, size p < n -> NoDup (ids p) -> forall o, In o (subs p) -> NoDup (ids o).
Proof.
  induction n as [|n IH]; intros p Hn N0 o I; [lia|].
  destruct I as [<- | I]; [exact N0|]. rewrite below_spine in I. pose proof (chain_spine p) as Q.
  destruct (spine p) as [|i' t' a' c' l' r'] eqn:Ep; [destruct I|].
  pose proof (spine_size _ _ _ _ _ _ _ Ep) as Hs.
  apply (Permutation_NoDup (Permutation_sym Q)) in N0. destruct (NoDup_app_parts _ _ _ N0) as (_ & N1 & _).
  destruct (NoDup_app_parts _ _ _ N1) as (N2 & N3 & _).
  apply in_app_or in I. destruct I as [I|I]; [apply (IH l') | apply (IH r')]; trivial; lia.
Qed.
Lemma parts_disjoint : forall a o b, NoDup (concat (map chain (a ++ o :: b))) -> forall x, In x (a ++ b) -> forall i, In i (chain x) -> ~ In i (chain o).
Proof.
  intros a o b H x Hx i Hi Ho. rewrite map_app, concat_app in H. cbn [map concat] in H.
  destruct (NoDup_app_parts _ _ _ H) as (_ & H1 & H2). destruct (NoDup_app_parts _ _ _ H1) as (_ & _ & H3).
  apply in_app_or in Hx. destruct Hx as [Hx|Hx].
  - apply (H2 i); [apply in_concat; exists (chain x); split; [apply in_map; exact Hx | exact Hi]|]. apply in_or_app. left. exact Ho.
  - apply (H3 i Ho). apply in_concat. exists (chain x). split; [apply in_map; exact Hx | exact Hi].
Qed.
Lemma good_split : forall d p, good d p = true -> statement p = true /\ same_collection p = true /\ fit d p = true /\ NoDup (ids p) /\ p <> Nil.
Proof.
  intros d p H. unfold good in H. rewrite !Bool.andb_true_iff in H. destruct H as [[[H1 H2] H3] H4].
  split; [|split; [|split; [|split]]]; trivial; [apply distinct_nodup; exact H4 | intros ->; discriminate H1].
Qed.
Definition index_op (p : op) : bool := match p with Op _ (TAddIndex | TDropIndex) _ _ _ _ => true | _ => false end.

Definition ended (p : op) (w : world) (s : N) : Prop :=
  clients w s = false /\ (forall c, susp w c s = None) /\ pend_of w s = [] /\ seen w s = full p.
Definition stopped (p : op) (w : world) (s : N) : Prop :=
  exists dn o rest k st1 st2, waits o = Some (Some k) /\ plans w s = Some {| stack := o :: rest; sts := st1 |} /\ clients w s = true /\
    susp w k s = Some o /\ (forall c, c <> k -> susp w c s = None) /\ pend_of w s = [(s, Find (Some k))] /\
    seen w s = concat (map evs dn) ++ [Asked (leaf o)] /\ on_execute st1 o = (st2, map Ran (rev (chain o)), []) /\
    inv p (dn ++ [o]) rest st2.

(** Each part is fit to run when those before it ran. *)
Lemma part_facts : forall d p dn o rest st, good d p = true -> index_op p = false -> inv p dn (o :: rest) st ->
  fit d o = true /\ o <> Nil /\ same_collection o = true /\ NoDup (ids o) /\ ready st o /\ reqs o = [] /\
  (reads o = true \/ (exists i t a c l r, o = Op i t a c l r /\ reads l = true /\ reads r = true)) /\
  ((rest = [] /\ o = p) \/ (rest <> [] /\ reads o = true)) /\
  (forall st', (forall i, In i (chain o) -> st' i = Executed) -> (forall i, ~ In i (chain o) -> st' i = st i) -> inv p (dn ++ [o]) rest st').
Proof.
  intros d p dn o rest st G IX (E & D1 & D2). destruct (good_split _ _ G) as (SP & SC & F & N0 & Np).
  assert (Io : In o (subs p)). { apply in_rev. rewrite E. apply in_or_app. right. left. reflexivity. }
  assert (E' : subs p = rev rest ++ o :: rev dn).
  { rewrite <- (rev_involutive (subs p)), E, rev_app_distr. cbn [rev]. rewrite <- app_assoc. reflexivity. }
  destruct (subs_good (S (size p)) d p ltac:(lia) F Np SC o Io) as (F1 & F2 & F3).
  pose proof (subs_nodup (S (size p)) p ltac:(lia) N0 o Io) as F4.
  assert (F5 : ready st o).
  { unfold ready. destruct (spine o) as [|i t a c l r] eqn:Eo; [trivial|].
    destruct (subs_later (S (size p)) p ltac:(lia) _ _ _ _ _ _ _ _ _ E' Eo) as [L1 L2].
    apply in_rev in L1. apply in_rev in L2. split.
    - destruct l; [reflexivity|]. cbn [done]. rewrite (D1 _ L1 i0 (or_introl eq_refl)). reflexivity.
    - destruct r; [reflexivity|]. cbn [done]. rewrite (D1 _ L2 i0 (or_introl eq_refl)). reflexivity. }
  assert (F8 : (rest = [] /\ o = p) \/ (rest <> [] /\ reads o = true)).
  { unfold subs in E'. destruct rest as [|x rest] using rev_ind.
    - left. cbn [rev app] in E'. injection E' as <- _. split; reflexivity.
    - right. split; [intros X; destruct rest; discriminate X|]. apply (below_reads p SP). rewrite rev_app_distr in E'. cbn [rev app] in E'.
      injection E' as _ E'. rewrite E'. apply in_or_app. right. left. reflexivity. }
  assert (F7 : reads o = true \/ (exists i t a c l r, o = Op i t a c l r /\ reads l = true /\ reads r = true)).
  { destruct F8 as [[_ ->] | [_ F8]]; [right | left; exact F8].
    destruct p as [|i t a c l r]; [congruence|]. exists i, t, a, c, l, r. cbn [statement] in SP.
    apply andb_prop in SP. destruct SP as [SP _]. apply andb_prop in SP. destruct SP as [S1 S2]. split; [reflexivity | split; assumption]. }
  assert (F6 : reqs o = []).
  { destruct F8 as [[_ ->] | [_ F8]].
    - destruct p as [|i t a c l r]; [reflexivity|]. destruct t; try reflexivity; discriminate IX.
    - destruct o as [|i t a c l r]; [reflexivity|]. destruct t; try reflexivity; discriminate F8. }
  split; [exact F1|]. split; [exact F2|]. split; [exact F3|]. split; [exact F4|]. split; [exact F5|]. split; [exact F6|].
  split; [exact F7|]. split; [exact F8|].
  intros st' H1 H2. assert (ND : NoDup (concat (map chain (dn ++ o :: rest)))).
  { apply (Permutation_NoDup (l := concat (map chain (subs p)))); [|rewrite chains_ids; exact N0].
    rewrite <- E, <- !flat_map_concat_map. apply Permutation_flat_map. apply Permutation_rev. }
  split; [|split].
  - rewrite <- app_assoc. exact E.
  - intros x Hx i Hi. apply in_app_or in Hx. destruct Hx as [Hx|[<- |[]]]; [|apply H1; exact Hi].
    rewrite H2; [apply (D1 x Hx i Hi)|]. apply (parts_disjoint _ _ _ ND x); [apply in_or_app; left; exact Hx | exact Hi].
  - intros x Hx i Hi. rewrite H2; [apply (D2 x (or_intror Hx) i Hi)|].
    apply (parts_disjoint _ _ _ ND x); [apply in_or_app; right; exact Hx | exact Hi].
Qed.

Definition askers (l : list op) : nat := length (filter (fun o => match waits o with Some _ => true | None => false end) l).
Definition weight (w : world) (x : N * request) : nat :=
  match plans w (fst x) with Some p => S (askers (stack p)) | None => 1 end.

Lemma run_stack_ok : forall d p, good d p = true -> index_op p = false -> forall stk dn st w s, inv p dn stk st -> stk <> [] ->
  clients w s = true -> (forall c, susp w c s = None) -> pend_of w s = [] -> seen w s = concat (map evs dn) ->
  exists w', run_stack d w s st stk = Ok w' /\ frame w w' s /\
    ((ended p w' s /\ pend w' = pend w) \/
     (stopped p w' s /\ exists k st1 o rest, pend w' = pend w ++ [(s, Find (Some k))] /\ plans w' s = Some {| stack := o :: rest; sts := st1 |} /\
        askers (o :: rest) <= askers stk)).
Proof.
  intros d p G IX. induction stk as [|o rest IH]; intros dn st w s I NE CL SU PE SE; [congruence|]. clear NE.
  destruct (part_facts d p dn o rest st G IX I) as (F1 & F2 & F3 & F4 & F5 & F6 & F7 & F8 & F9).
  destruct I as (E & D1 & D2). assert (Co : forall i, In i (chain o) -> st i = Created) by (apply D2; left; reflexivity).
  destruct (waits o) as [kk|] eqn:W.
  - destruct (exec_later d o st kk F1 F4 W Co F7 F6) as (st1 & st2 & E1 & E2 & X0 & X1 & X2 & X3).
    pose proof F3 as SC. unfold same_collection in SC. rewrite W in SC.
    destruct o as [|i t a c l r] eqn:Eo; [congruence|]. rewrite <- Eo in *.
    destruct kk as [k|]; [|rewrite ?Eo in SC; discriminate SC]. rewrite ?Eo in SC. destruct c as [c|]; [|discriminate SC]. apply N.eqb_eq in SC. subst c.
    rewrite Eo in F1. destruct (fit_split _ _ _ _ _ _ _ F1) as (_ & _ & _ & _ & DR & _). cbn in DR. rewrite <- Eo in F1.
    rewrite Eo. cbn [run_stack]. rewrite DR, <- Eo, E1.
    assert (Xi : st1 i = Running \/ st1 i = Waiting). { apply X3. rewrite Eo. left. reflexivity. }
    set (w1 := keep (note w s [Asked (leaf o)] [Find (Some k)]) s {| stack := o :: rest; sts := st1 |}).
    assert (RS : (match st1 i with
      | Executed => match t with
        | TInsert | TRemove | TUpdate => match rest with [] => finish (note (note w s [Asked (leaf o)] [Find (Some k)]) s [Wrote] []) s (Some i) | _ :: _ => run_stack d (note (note w s [Asked (leaf o)] [Find (Some k)]) s [Wrote] []) s st1 rest end
        | TAddIndex => Ok w1
        | TDropIndex => do w2 <- answer (note w s [Asked (leaf o)] [Find (Some k)]) s (Some i); Ok (keep w2 s {| stack := o :: rest; sts := st1 |})
        | TRead | TOther => match rest with [] => finish (note w s [Asked (leaf o)] [Find (Some k)]) s (Some i) | _ :: _ => run_stack d (note w s [Asked (leaf o)] [Find (Some k)]) s st1 rest end
        end
      | _ => Ok (suspend w1 k s o) end) = Ok (suspend w1 k s o)) by (destruct Xi as [-> | ->]; reflexivity).
    exists (suspend w1 k s o). split; [destruct Xi as [-> | ->]; reflexivity|]. clear RS.
    destruct (suspend_ok w1 k s o (SU k)) as (A1 & A2 & A3).
    split; [|right; split].
    + eapply frame_trans; [apply note_frame|]. eapply frame_trans; [apply keep_frame|]. exact A1.
    + exists dn, o, rest, k, st1, st2. unfold w1 in *. split; [exact W|].
      unfold suspend. cbn [plans clients pend log keep note susp]. split; [apply updN_same|]. split; [exact CL|].
      split; [exact A2|]. split; [intros c Hc; etransitivity; [apply (A3 c Hc)|]; apply SU|].
      split; [|split; [|split]].
      * change (pend_of (note w s [Asked (leaf o)] [Find (Some k)]) s = [(s, Find (Some k))]). rewrite note_pend, PE. reflexivity.
      * change (seen (note w s [Asked (leaf o)] [Find (Some k)]) s = concat (map evs dn) ++ [Asked (leaf o)]). rewrite note_seen, SE. reflexivity.
      * exact E2.
      * apply F9; [exact X1 | intros j Hj; apply (proj1 (X2 j Hj))].
    + exists k, st1, o, rest. split; [reflexivity|]. split; [apply updN_same | lia].
  - destruct (exec_now d o st F1 F4 F2 W Co F5 F7) as (st' & E1 & X1 & X2). rewrite F6 in E1.
    pose proof (F9 st' X1 X2) as I'.
    assert (AK : askers (o :: rest) = askers rest) by (unfold askers; cbn [filter]; rewrite W; reflexivity).
    destruct o as [|i t a c l r] eqn:Eo; [congruence|]. rewrite <- Eo in *.
    rewrite Eo in F1. destruct (fit_split _ _ _ _ _ _ _ F1) as (_ & _ & _ & _ & DR & _). rewrite <- Eo in F1.
    rewrite Eo. cbn [run_stack]. rewrite <- Eo.
    replace (match c with Some k => d k | None => false end) with false by (destruct c; [symmetry; exact DR | reflexivity]).
    rewrite E1. rewrite (X1 i) by (rewrite Eo; left; reflexivity).
    set (w1 := note w s (map Ran (rev (chain o))) []).
    (* what is done with the result *)
    assert (NX : forall w2, clients w2 s = true -> frame w w2 s -> (forall c, susp w2 c s = None) -> pend w2 = pend w -> seen w2 s = seen w s ++ evs o ->
      exists w', match rest with [] => finish w2 s (Some i) | _ :: _ => run_stack d w2 s st' rest end = Ok w' /\ frame w w' s /\
        ((ended p w' s /\ pend w' = pend w) \/
         (stopped p w' s /\ exists k st1 o rest', pend w' = pend w ++ [(s, Find (Some k))] /\ plans w' s = Some {| stack := o :: rest'; sts := st1 |} /\
            askers (o :: rest') <= askers rest))).
    { intros w2 CL2 FR2 SU2 PE2 SE2. assert (PE2' : pend_of w2 s = []) by (unfold pend_of; rewrite PE2; exact PE).
      assert (SE2' : seen w2 s = concat (map evs (dn ++ [o]))).
      { rewrite SE2, SE, map_app, concat_app. cbn [map concat]. rewrite app_nil_r. reflexivity. }
      destruct rest as [|o2 rest2] eqn:Er.
      - destruct (finish_ok w2 s (Some i) CL2) as (w' & Ew & A1 & A2 & A3 & A4 & A5 & A6). exists w'. split; [exact Ew|].
        split; [eapply frame_trans; [exact FR2 | exact A1]|]. left. split; [|congruence].
        split; [exact A2|]. split; [intros c0; rewrite A4; apply SU2|]. split; [unfold pend_of; rewrite A5; exact PE2'|].
        rewrite A6, SE2'. unfold full. destruct F8 as [[_ Fp] | [Fn _]]; [|congruence].
        f_equal.
        + rewrite E. reflexivity.
        + rewrite <- Fp, Eo. reflexivity.
      - rewrite <- Er in *. assert (NR : rest <> []) by (rewrite Er; discriminate).
        destruct (IH (dn ++ [o]) st' w2 s I' NR CL2 SU2 PE2' SE2') as (w' & Ew & A1 & A2). exists w'.
        split; [rewrite Er in Ew |- *; exact Ew|]. split; [eapply frame_trans; [exact FR2 | exact A1]|]. rewrite PE2 in A2. exact A2. }
    rewrite <- AK in NX.
    assert (P1 : pend w1 = pend w) by (unfold w1, note; cbn [pend map]; apply app_nil_r).
    destruct F8 as [[F8 Fp] | [F8 Fr]].
    + assert (SP : statement o = true) by (rewrite Fp; apply (good_split _ _ G)).
      rewrite <- Fp in IX.
      rewrite Eo in SP. cbn [statement] in SP. apply andb_prop in SP. destruct SP as [_ SP].
      rewrite Eo in IX. cbn [index_op] in IX.
      assert (RO : (t = TRead \/ t = TOther) \/ ((t = TInsert \/ t = TRemove \/ t = TUpdate) /\ exists k, c = Some k)).
      { destruct t; try discriminate IX; try (left; auto; fail); right; (split; [auto|]); destruct c; try discriminate SP; eexists; reflexivity. }
      assert (R1 : t = TRead \/ t = TOther -> evs o = map Ran (rev (chain o))).
      { intros Ht. unfold evs. rewrite W, Eo. destruct Ht as [-> | ->]; cbn [changes]; apply app_nil_r. }
      assert (R2 : t = TInsert \/ t = TRemove \/ t = TUpdate -> evs o = map Ran (rev (chain o)) ++ [Wrote]).
      { intros Ht. unfold evs. rewrite W, Eo. destruct Ht as [-> | [-> | ->]]; reflexivity. }
      assert (Q1 : t = TRead \/ t = TOther -> seen w1 s = seen w s ++ evs o). { intros Ht. rewrite (R1 Ht). apply note_seen. }
      assert (Q2 : t = TInsert \/ t = TRemove \/ t = TUpdate -> seen (note w1 s [Wrote] []) s = seen w s ++ evs o).
      { intros Ht. rewrite (R2 Ht), note_seen. unfold w1. rewrite note_seen, <- app_assoc. reflexivity. }
      assert (P2 : pend (note w1 s [Wrote] []) = pend w). { unfold note. cbn [pend map]. rewrite app_nil_r. exact P1. }
      assert (FR2 : frame w (note w1 s [Wrote] []) s). { eapply frame_trans; [apply note_frame|]. apply note_frame. }
      destruct RO as [Ht | [Ht [k ->]]].
      * assert (Z := NX w1 CL (note_frame _ _ _ _) SU P1 (Q1 Ht)). destruct Ht as [-> | ->]; exact Z.
      * assert (Z := NX (note w1 s [Wrote] []) CL FR2 SU P2 (Q2 Ht)). destruct Ht as [-> | [-> | ->]]; exact Z.
    + assert (Ht : t = TRead \/ t = TOther). { rewrite Eo in Fr. cbn [reads] in Fr. destruct t; try discriminate Fr; auto. }
      assert (R1 : evs o = map Ran (rev (chain o))). { unfold evs. rewrite W, Eo. destruct Ht as [-> | ->]; cbn [changes]; apply app_nil_r. }
      assert (Q1 : seen w1 s = seen w s ++ evs o). { rewrite R1. apply note_seen. }
      assert (Z := NX w1 CL (note_frame _ _ _ _) SU P1 Q1). destruct Ht as [-> | ->]; exact Z.
Qed.

(** ** All sessions *)
Definition indexing (p : op) (w : world) (s : N) : Prop :=
  exists i c st, p = Op i TAddIndex false c Nil Nil /\ plans w s = Some {| stack := [p]; sts := st |} /\ clients w s = true /\
    (forall k, susp w k s = None) /\ pend_of w s = [(s, CreateIx c)] /\ seen w s = [Ran i].
Definition status (p : op) (w : world) (s : N) : Prop := ended p w s \/ stopped p w s \/ indexing p w s.
Definition fresh (w : world) (s : N) : Prop :=
  plans w s = None /\ (forall c, susp w c s = None) /\ pend_of w s = [] /\ seen w s = [].
Definition winv (d : N -> bool) (h : list (N * op)) (w : world) : Prop :=
  (forall s p, In (s, p) h -> good d p = true /\ status p w s) /\ (forall s, ~ In s (map fst h) -> fresh w s).

Lemma status_frame : forall w w' s p s', frame w w' s -> s' <> s -> status p w s' -> status p w' s'.
Proof.
  intros w w' s p s' F Hs H. destruct (F s' Hs) as (A1 & A2 & A3 & A4 & A5).
  destruct H as [(B1 & B2 & B3 & B4) | [(dn & o & rest & k & st1 & st2 & B1 & B2 & B3 & B4 & B5 & B6 & B7 & B8 & B9) | (i & c & st & B1 & B2 & B3 & B4 & B5 & B6)]].
  - left. split; [congruence|]. split; [intros c; rewrite A3; apply B2|]. split; congruence.
  - right. left. exists dn, o, rest, k, st1, st2. split; [exact B1|]. split; [congruence|]. split; [congruence|]. split; [rewrite A3; exact B4|].
    split; [intros c Hc; rewrite A3; apply B5; exact Hc|]. split; [congruence|]. split; [congruence|]. split; assumption.
  - right. right. exists i, c, st. split; [exact B1|]. split; [congruence|]. split; [congruence|]. split; [intros k; rewrite A3; apply B4|]. split; congruence.
Qed.
Lemma fresh_frame : forall w w' s s', frame w w' s -> s' <> s -> fresh w s' -> fresh w' s'.
Proof.
  intros w w' s s' F Hs (B1 & B2 & B3 & B4). destruct (F s' Hs) as (A1 & A2 & A3 & A4 & A5).
  split; [congruence|]. split; [intros c; rewrite A3; apply B2|]. split; congruence.
Qed.

Lemma inv_start : forall p, inv p [] (rev (subs p)) (fun _ => Created).
Proof. intros p. split; [reflexivity|]. split; [intros o []|]. intros o _ i _. reflexivity. Qed.
Lemma rev_subs_ne : forall p, rev (subs p) <> [].
Proof. intros p H. unfold subs in H. cbn [rev] in H. destruct (rev (below p)); discriminate H. Qed.
Lemma execute_ok : forall d w s p, good d p = true -> fresh w s ->
  exists w', execute d w s p = Ok w' /\ frame w w' s /\ status p w' s.
Proof.
  intros d w s p G (P0 & S0 & Q0 & L0). destruct (good_split _ _ G) as (SP & SC & F & N0 & Np).
  unfold execute. rewrite (traverse_all d p F Np). rewrite P0.
  set (w0 := {| clients := updN (clients w) s true; plans := plans w; susp := susp w; pend := pend w; log := log w |}).
  assert (FR0 : frame w w0 s).
  { intros s' Hs. unfold pend_of, seen, w0. cbn [clients plans susp pend log]. rewrite updN_other by exact Hs. repeat split; reflexivity. }
  assert (X : exists w', run_stack d (keep w0 s {| stack := rev (subs p); sts := fun _ => Created |}) s (fun _ => Created) (rev (subs p)) = Ok w' /\ frame w w' s /\ status p w' s).
  { set (w1 := keep w0 s {| stack := rev (subs p); sts := fun _ => Created |}).
    assert (FR1 : frame w w1 s) by (eapply frame_trans; [exact FR0 | apply keep_frame]).
    assert (CL1 : clients w1 s = true) by (apply updN_same).
    destruct (index_op p) eqn:IX.
    - destruct p as [|i t a c l r]; [congruence|]. cbn [statement] in SP.
      assert (Z : a = false /\ l = Nil /\ r = Nil).
      { apply andb_prop in SP. destruct SP as [_ SP]. destruct t; try discriminate IX; apply andb_prop in SP; destruct SP as [SP S3];
        apply andb_prop in SP; destruct SP as [S1 S2]; destruct a, l, r; try discriminate S1; try discriminate S2; try discriminate S3; split; [|split| |split]; reflexivity. }
      destruct Z as (-> & -> & ->). destruct (fit_split _ _ _ _ _ _ _ F) as (_ & _ & _ & _ & DR & _).
      unfold subs in w1 |- *. cbn [below rev app] in w1 |- *. cbn [run_stack].
      replace (match c with Some k => d k | None => false end) with false by (destruct c; [symmetry; exact DR | reflexivity]).
      cbn [on_execute done andb app]. unfold upd at 1. rewrite Nat.eqb_refl.
      destruct t; try discriminate IX.
      + eexists. split; [reflexivity|]. split.
        * eapply frame_trans; [exact FR1|]. eapply frame_trans; [apply note_frame | apply keep_frame].
        * right. right. exists i, c. eexists. split; [reflexivity|]. split; [apply updN_same|]. split; [exact CL1|]. split; [exact S0|]. split.
          -- change (pend_of (note w1 s [Ran i] [CreateIx c]) s = [(s, CreateIx c)]). rewrite note_pend.
             change (pend_of w1 s) with (pend_of w s). rewrite Q0. reflexivity.
          -- change (seen (note w1 s [Ran i] [CreateIx c]) s = [Ran i]). rewrite note_seen. change (seen w1 s) with (seen w s). rewrite L0. reflexivity.
      + destruct (answer_ok (note w1 s [Ran i] []) s (Some i) CL1) as (w2 & E2 & A1 & A2 & A3 & A4 & A5 & A6).
        rewrite E2. cbn [rbind]. eexists. split; [reflexivity|]. split.
        * eapply frame_trans; [exact FR1|]. eapply frame_trans; [apply note_frame|]. eapply frame_trans; [exact A1 | apply keep_frame].
        * left. split; [exact A2|]. split; [intros k; etransitivity; [apply A4 | apply S0]|]. split.
          -- change (pend_of w2 s = []). unfold pend_of. rewrite A5. change (pend_of (note w1 s [Ran i] []) s = []). rewrite note_pend.
             change (pend_of w1 s) with (pend_of w s). rewrite Q0. reflexivity.
          -- change (seen w2 s = full (Op i TDropIndex false c Nil Nil)). rewrite A6, note_seen. change (seen w1 s) with (seen w s). rewrite L0. reflexivity.
    - destruct (run_stack_ok d p G IX (rev (subs p)) [] (fun _ => Created) w1 s (inv_start p) (rev_subs_ne p) CL1 S0 Q0 L0) as (w' & E & A1 & A2).
      exists w'. split; [exact E|]. split; [eapply frame_trans; [exact FR1 | exact A1]|].
      destruct A2 as [[A2 _] | [A2 _]]; [left | right; left]; exact A2. }
  destruct p as [|i t a c l r]; [congruence|]. cbn [rbind]. exact X.
Qed.

Lemma without_filter : forall (l : list (N * request)) n s q, nth_error l n = Some (s, q) ->
  (forall s', s' <> s -> filter (fun x => (fst x =? s')%N) (without l n) = filter (fun x => (fst x =? s')%N) l) /\
  exists x y, filter (fun x => (fst x =? s)%N) l = x ++ (s, q) :: y /\ filter (fun x => (fst x =? s)%N) (without l n) = x ++ y.
Proof.
  induction l as [|[s0 q0] l IH]; intros n s q H; [destruct n; discriminate H|]. destruct n as [|n]; cbn [nth_error without] in *.
  - injection H as -> ->. split.
    + intros s' Hs. cbn [filter fst]. destruct (N.eqb_spec s s'); [congruence | reflexivity].
    + exists [], (filter (fun x => (fst x =? s)%N) l). cbn [filter fst]. rewrite N.eqb_refl. split; reflexivity.
  - destruct (IH n s q H) as (A1 & x & y & A2 & A3). split.
    + intros s' Hs. cbn [filter fst]. rewrite (A1 s' Hs). reflexivity.
    + cbn [filter fst]. destruct (N.eqb_spec s0 s) as [->|].
      * exists ((s, q0) :: x), y. rewrite A2, A3. split; reflexivity.
      * exists x, y. split; assumption.
Qed.
Fixpoint total (f : N * request -> nat) (l : list (N * request)) : nat := match l with [] => 0 | x :: r => f x + total f r end.
Lemma total_without : forall f l n x, nth_error l n = Some x -> total f (without l n) + f x = total f l.
Proof.
  induction l as [|y l IH]; intros n x H; [destruct n; discriminate H|]. destruct n as [|n]; cbn [nth_error without total] in *.
  - injection H as ->. lia.
  - specialize (IH n x H). lia.
Qed.
Lemma total_app : forall f a b, total f (a ++ b) = total f a + total f b.
Proof. induction a as [|x a IH]; intros b; cbn [app total]; [reflexivity|]. rewrite IH. lia. Qed.
Lemma total_ext : forall f g l, (forall x, In x l -> f x = g x) -> total f l = total g l.
Proof.
  induction l as [|x l IH]; intros H; [reflexivity|]. cbn [total]. rewrite (H x (or_introl eq_refl)). f_equal. apply IH. intros y Hy. apply H. right. exact Hy.
Qed.
Definition owed (w : world) : nat := total (weight w) (pend w).

Lemma deliver_ok : forall d h w n s q, winv d h w -> nth_error (pend w) n = Some (s, q) ->
  exists p w', In (s, p) h /\ good d p = true /\ step d w (Deliver n) = Ok w' /\ frame w w' s /\ status p w' s /\ owed w' < owed w.
Proof.
  intros d h w n s q (V1 & V2) E. cbn [step]. rewrite E.
  destruct (without_filter _ _ _ _ E) as (W1 & x & y & W2 & W3).
  assert (Hin : In s (map fst h)).
  { destruct (in_dec N.eq_dec s (map fst h)) as [I|I]; [exact I|]. exfalso. destruct (V2 s I) as (_ & _ & Q & _).
    unfold pend_of in Q. rewrite W2 in Q. destruct x; discriminate Q. }
  apply in_map_iff in Hin. destruct Hin as ([s' p] & Es & Hin). cbn [fst] in Es. subst s'.
  destruct (V1 s p Hin) as (G & ST). exists p.
  set (w0 := {| clients := clients w; plans := plans w; susp := susp w; pend := without (pend w) n; log := log w |}).
  assert (FR0 : frame w w0 s).
  { intros s' Hs. unfold pend_of, seen, w0. cbn [clients plans susp pend log]. rewrite (W1 s' Hs). repeat split; reflexivity. }
  assert (ONE : forall z, pend_of w s = [z] -> z = (s, q) /\ pend_of w0 s = []).
  { intros z Hz. unfold pend_of in Hz. rewrite W2 in Hz. destruct x as [|x1 x].
    - cbn [app] in Hz. injection Hz as <- ->. split; [reflexivity|]. unfold pend_of, w0. cbn [pend]. rewrite W3. reflexivity.
    - exfalso. injection Hz as _ Hz. destruct x; discriminate Hz. }
  assert (OT : forall w' extra, pend_of w0 s = [] -> frame w0 w' s -> pend w' = pend w0 ++ extra -> total (weight w') extra < weight w (s, q) -> owed w' < owed w).
  { intros w' extra Q0 F Ep Hl. unfold owed. rewrite Ep, total_app. rewrite <- (total_without (weight w) _ _ _ E).
    rewrite (total_ext (weight w') (weight w) (pend w0)); [unfold w0; cbn [pend]; lia|].
    intros z Hz. unfold weight. assert (fst z <> s).
    { intros Ez. assert (Iz : In z (pend_of w0 s)) by (apply filter_In; split; [exact Hz | apply N.eqb_eq; exact Ez]). rewrite Q0 in Iz. destruct Iz. }
    destruct (F (fst z) H) as (_ & A2 & _). rewrite A2. reflexivity. }
  destruct (good_split _ _ G) as (SP & SC & Fp & N0 & Np).
  destruct ST as [(_ & _ & B3 & _) | [(dn & o & rest & k & st1 & st2 & B1 & B2 & B3 & B4 & B5 & B6 & B7 & B8 & B9) | (i & c & st & B1 & B2 & B3 & B4 & B5 & B6)]].
  - exfalso. unfold pend_of in B3. rewrite W2 in B3. destruct x; discriminate B3.
  - destruct (ONE _ B6) as [Eq Q0]. injection Eq as <-.
    assert (IX : index_op p = false).
    { destruct p as [|i t a c l r]; [reflexivity|]. cbn [statement] in SP. apply andb_prop in SP. destruct SP as [_ SP].
      destruct t; try reflexivity; exfalso; apply andb_prop in SP; destruct SP as [SP S3]; apply andb_prop in SP; destruct SP as [S1 S2];
        destruct a, l, r; try discriminate S1; try discriminate S2; try discriminate S3; destruct B9 as (B9 & _ & _);
        unfold subs in B9; cbn [below rev app] in B9; destruct dn as [|z dn]; try (destruct dn; discriminate B9);
        cbn [app] in B9; injection B9 as <- _; discriminate B1. }
    cbn [found]. unfold found. change (susp w0 k s) with (susp w k s). change (plans w0 s) with (plans w s). rewrite B4, B2.
    cbn [stack sts]. rewrite B8.
    set (w1 := unsuspend (note w0 s (map Ran (rev (chain o))) []) k s).
    destruct (unsuspend_ok (note w0 s (map Ran (rev (chain o))) []) k s) as (U1 & U2 & U3). fold w1 in U1, U2, U3.
    assert (FR1 : frame w0 w1 s) by (eapply frame_trans; [apply note_frame | exact U1]).
    assert (SU1 : forall c, susp w1 c s = None).
    { intros c. destruct (N.eq_dec c k) as [->|Hc]; [exact U2|]. rewrite (U3 c Hc). apply B5. exact Hc. }
    assert (P1 : pend w1 = pend w0) by (unfold w1, unsuspend, note; cbn [pend map]; apply app_nil_r).
    assert (Q1 : pend_of w1 s = []) by (unfold pend_of; rewrite P1; exact Q0).
    assert (L1 : seen w1 s = concat (map evs (dn ++ [o]))).
    { change (seen (note w0 s (map Ran (rev (chain o))) []) s = concat (map evs (dn ++ [o]))). rewrite note_seen.
      change (seen w0 s) with (seen w s). rewrite B7, map_app, concat_app. cbn [map concat]. unfold evs at 3. rewrite B1, app_nil_r, <- app_assoc. reflexivity. }
    assert (WT : weight w (s, Find (Some k)) = S (S (askers rest))).
    { unfold weight. cbn [fst]. rewrite B2. cbn [stack]. unfold askers. cbn [filter]. rewrite B1. reflexivity. }
    destruct o as [|i t a c l r] eqn:Eo; [discriminate B1|]. rewrite <- Eo in *.
    destruct rest as [|o2 rest2] eqn:Er.
    + assert (Ep : o = p).
      { destruct B9 as (B9 & _ & _). rewrite app_nil_r in B9. unfold subs in B9. cbn [rev] in B9. apply app_inj_tail in B9. symmetry. apply B9. }
      destruct (finish_ok w1 s (Some i) B3) as (w' & Ew & A1 & A2 & A3 & A4 & A5 & A6). exists w'.
      split; [exact Hin|]. split; [exact G|]. split; [exact Ew|]. split; [eapply frame_trans; [exact FR0|]; eapply frame_trans; [exact FR1 | exact A1]|]. split.
      * left. split; [exact A2|]. split; [intros c0; rewrite A4; apply SU1|]. split; [unfold pend_of; rewrite A5; exact Q1|].
        rewrite A6, L1. unfold full. destruct B9 as (B9 & _ & _). rewrite B9, app_nil_r, <- Ep, Eo. reflexivity.
      * apply (OT w' []); [exact Q0 | eapply frame_trans; [exact FR1 | exact A1] | rewrite app_nil_r; congruence | rewrite WT; cbn [total]; lia].
    + rewrite <- Er in *. assert (NR : rest <> []) by (rewrite Er; discriminate).
      destruct (run_stack_ok d p G IX rest (dn ++ [o]) st2 w1 s B9 NR B3 SU1 Q1 L1) as (w' & Ew & A1 & A2). exists w'.
      split; [exact Hin|]. split; [exact G|]. split; [exact Ew|].
      split; [eapply frame_trans; [exact FR0|]; eapply frame_trans; [exact FR1 | exact A1]|].
      assert (FRX : frame w0 w' s) by (eapply frame_trans; [exact FR1 | exact A1]).
      destruct A2 as [[A2 A3] | [A2 (k2 & st3 & o3 & rest3 & A3 & A4 & A5)]].
      * split; [left; exact A2|]. apply (OT w' []); [exact Q0 | exact FRX | rewrite app_nil_r; congruence | rewrite WT; cbn [total]; lia].
      * split; [right; left; exact A2|]. apply (OT w' [(s, Find (Some k2))]); [exact Q0 | exact FRX | congruence|].
        rewrite WT. cbn [total]. unfold weight. cbn [fst]. rewrite A4. cbn [stack]. lia.
  - destruct (ONE _ B5) as [Eq Q0]. injection Eq as <-. rewrite B2. cbn [stack]. rewrite B1.
    destruct (answer_ok w0 s (Some i) B3) as (w' & Ew & A1 & A2 & A3 & A4 & A5 & A6). exists w'.
    split; [rewrite <- B1; exact Hin|]. split; [rewrite <- B1; exact G|]. split; [exact Ew|]. split; [eapply frame_trans; [exact FR0 | exact A1]|]. split.
    + left. split; [exact A2|]. split; [intros c0; rewrite A4; apply B4|]. split; [unfold pend_of; rewrite A5; exact Q0|].
      rewrite A6. change (seen w0 s) with (seen w s). rewrite B6. reflexivity.
    + apply (OT w' []); [exact Q0 | exact A1 | rewrite app_nil_r; exact A5|]. unfold weight. cbn [total fst]. rewrite B2. lia.
Qed.

Definition distinct_sessions (h : list (N * op)) : Prop := NoDup (map fst h).
Lemma only_one : forall (h : list (N * op)) s p p', NoDup (map fst h) -> In (s, p) h -> In (s, p') h -> p = p'.
Proof.
  induction h as [|[s0 p0] h IH]; intros s p p' N0 I J; [destruct I|]. cbn [map fst] in N0. apply NoDup_cons_iff in N0. destruct N0 as [N1 N2].
  destruct I as [I|I], J as [J|J].
  - congruence.
  - injection I as -> ->. exfalso. apply N1. apply (in_map fst) in J. exact J.
  - injection J as -> ->. exfalso. apply N1. apply (in_map fst) in I. exact I.
  - apply (IH s p p' N2 I J).
Qed.
Lemma winv_deliver : forall d h w n, NoDup (map fst h) -> winv d h w -> exists w', step d w (Deliver n) = Ok w' /\ winv d h w' /\ (nth_error (pend w) n <> None -> owed w' < owed w).
Proof.
  intros d h w n N0 V. destruct (nth_error (pend w) n) as [[s q]|] eqn:E.
  - destruct (deliver_ok d h w n s q V E) as (p & w' & I & G & Ew & F & ST & O). exists w'. split; [exact Ew|]. split; [|intros _; exact O].
    destruct V as (V1 & V2). split.
    + intros s' p' I'. destruct (V1 s' p' I') as (G' & ST'). split; [exact G'|].
      destruct (N.eq_dec s' s) as [->|Hs]; [rewrite (only_one h s p' p N0 I' I); exact ST | apply (status_frame w w' s p' s' F Hs ST')].
    + intros s' I'. destruct (N.eq_dec s' s) as [->|Hs]; [exfalso; apply I'; apply (in_map fst) in I; exact I | apply (fresh_frame w w' s s' F Hs (V2 s' I'))].
  - exists w. cbn [step]. rewrite E. split; [reflexivity|]. split; [exact V | congruence].
Qed.
Lemma winv_execute : forall d h w s p, winv d h w -> ~ In s (map fst h) -> good d p = true -> exists w', step d w (Execute s p) = Ok w' /\ winv d ((s, p) :: h) w'.
Proof.
  intros d h w s p (V1 & V2) I G. destruct (execute_ok d w s p G (V2 s I)) as (w' & E & F & ST). exists w'. split; [exact E|]. split.
  - intros s' p' [J|J]; [injection J as <- <-; split; assumption|]. destruct (V1 s' p' J) as (G' & ST'). split; [exact G'|].
    apply (status_frame w w' s p' s' F); [|exact ST']. intros ->. apply I. apply (in_map fst) in J. exact J.
  - intros s' J. cbn [map fst] in J. assert (s' <> s) by (intros ->; apply J; left; reflexivity).
    apply (fresh_frame w w' s s' F H). apply V2. intros K. apply J. right. exact K.
Qed.
Lemma steps_ok : forall d l h w, winv d h w -> NoDup (map fst h) -> NoDup (sessions l) -> (forall s, In s (map fst h) -> ~ In s (sessions l)) ->
  (forall s p, In (Execute s p) l -> good d p = true) ->
  exists w' h', steps d w l = Ok w' /\ winv d h' w' /\ NoDup (map fst h') /\ (forall s p, In (s, p) h' <-> In (s, p) h \/ In (Execute s p) l).
Proof.
  intros d. induction l as [|x l IH]; intros h w V N0 ND DJ GD.
  - exists w, h. split; [reflexivity|]. split; [exact V|]. split; [exact N0|]. intros s p. split; [intros H; left; exact H | intros [H|[]]; exact H].
  - cbn [steps]. destruct x as [s p|n].
    + cbn [sessions flat_map app] in ND. apply NoDup_cons_iff in ND. destruct ND as [ND1 ND2].
      assert (I : ~ In s (map fst h)) by (intros I; apply (DJ s I); left; reflexivity).
      destruct (winv_execute d h w s p V I (GD s p (or_introl eq_refl))) as (w1 & E1 & V1). rewrite E1. cbn [rbind].
      destruct (IH ((s, p) :: h) w1 V1) as (w' & h' & E & V' & N' & IFF).
      * cbn [map fst]. constructor; assumption.
      * exact ND2.
      * intros s' [<- | J]; [exact ND1|]. intros K. apply (DJ s' J). right. exact K.
      * intros s' p' J. apply (GD s' p'). right. exact J.
      * exists w', h'. split; [exact E|]. split; [exact V'|]. split; [exact N'|]. intros s' p'. rewrite IFF. cbn [In]. split.
        -- intros [[J|J]|J]; [right; left; congruence | left; exact J | right; right; exact J].
        -- intros [J|[J|J]]; [left; right; exact J | left; left; congruence | right; exact J].
    + destruct (winv_deliver d h w n N0 V) as (w1 & E1 & V1 & _). rewrite E1. cbn [rbind].
      destruct (IH h w1 V1 N0 ND DJ) as (w' & h' & E & V' & N' & IFF).
      * intros s' p' J. apply (GD s' p'). right. exact J.
      * exists w', h'. split; [exact E|]. split; [exact V'|]. split; [exact N'|]. intros s' p'. rewrite IFF. cbn [In]. split.
        -- intros [J|J]; [left; exact J | right; right; exact J].
        -- intros [J|[J|J]]; [left; exact J | discriminate J | right; exact J].
Qed.
Lemma start_ok : forall d, winv d [] start.
Proof. intros d. split; [intros s p []|]. intros s _. split; [reflexivity|]. split; [reflexivity|]. split; reflexivity. Qed.
Lemma waiting_pend : forall w s, waiting w s = false -> pend_of w s = [].
Proof.
  intros w s. unfold waiting, pend_of. induction (pend w) as [|x l IH]; intros H; [reflexivity|]. cbn [existsb filter] in *.
  destruct (fst x =? s)%N; [discriminate H | apply IH; exact H].
Qed.
Lemma waiting_true : forall w s, waiting w s = true -> pend_of w s <> [].
Proof.
  intros w s. unfold waiting, pend_of. induction (pend w) as [|x l IH]; intros H; [discriminate H|]. cbn [existsb filter] in *.
  destruct (fst x =? s)%N; [discriminate | apply IH; exact H].
Qed.
Lemma status_free : forall p w s, status p w s -> waiting w s = false -> seen w s = full p.
Proof.
  intros p w s ST H. apply waiting_pend in H.
  destruct ST as [(_ & _ & _ & B4) | [(dn & o & rest & k & st1 & st2 & _ & _ & _ & _ & _ & B6 & _) | (i & c & st & _ & _ & _ & _ & B5 & _)]];
    [exact B4 | congruence | congruence].
Qed.
Lemma status_waiting : forall p w s, status p w s -> waiting w s = true -> answers (seen w s) = [].
Proof.
  intros p w s ST H. apply waiting_true in H.
  destruct ST as [(_ & _ & B3 & _) | [(dn & o & rest & k & st1 & st2 & _ & _ & _ & _ & _ & _ & B7 & _) | (i & c & st & _ & _ & _ & _ & _ & B6)]].
  - congruence.
  - rewrite B7, answers_app, answers_parts. reflexivity.
  - rewrite B6. reflexivity.
Qed.

Lemma answered : forall d l, NoDup (sessions l) -> (forall s p, In (Execute s p) l -> good d p = true) ->
  exists w, steps d start l = Ok w /\ forall s p, In (Execute s p) l ->
    (waiting w s = true -> answers (seen w s) = []) /\
    (waiting w s = false -> exists es, seen w s = es ++ [Answer (root p)] /\ answers es = [] /\
       Permutation (ran es) (ids p) /\ children_first p (ran es)).
Proof.
  intros d l ND GD. destruct (steps_ok d l [] start (start_ok d)) as (w & h & E & (V1 & _) & _ & IFF); [constructor | exact ND | intros s [] | exact GD|].
  exists w. split; [exact E|]. intros s p I. destruct (V1 s p) as (G & ST); [apply IFF; right; exact I|]. split.
  - apply status_waiting with (p := p). exact ST.
  - intros H. exists (concat (map evs (rev (subs p)))). split; [apply (status_free p w s ST H)|]. split; [apply answers_parts|].
    rewrite ran_parts, chains_ids. split; [apply Permutation_sym, Permutation_rev | apply children_first_rev].
Qed.
Lemma all_delivered : forall d h n w, NoDup (map fst h) -> winv d h w -> owed w < n -> exists k w', steps d w (repeat (Deliver 0) k) = Ok w' /\ pend w' = [].
Proof.
  intros d h. induction n as [|n IH]; intros w N0 V H; [lia|]. destruct (pend w) as [|x l] eqn:E.
  - exists 0, w. split; [reflexivity | exact E].
  - destruct (winv_deliver d h w 0 N0 V) as (w1 & E1 & V1 & O). rewrite E in O. cbn [nth_error] in O. specialize (O ltac:(discriminate)).
    destruct (IH w1 N0 V1 ltac:(lia)) as (k & w' & E2 & E3). exists (S k), w'. split; [|exact E3]. cbn [repeat steps]. rewrite E1. exact E2.
Qed.
Lemma finishes : forall d l w, NoDup (sessions l) -> (forall s p, In (Execute s p) l -> good d p = true) -> steps d start l = Ok w ->
  exists k w', steps d w (repeat (Deliver 0) k) = Ok w' /\ pend w' = [].
Proof.
  intros d l w ND GD E. destruct (steps_ok d l [] start (start_ok d)) as (w0 & h & E0 & V & N' & _); [constructor | exact ND | intros s [] | exact GD|].
  assert (w0 = w) by congruence. subst w0. apply (all_delivered d h (S (owed w)) w N' V). lia.
Qed.
Lemma written : forall d l, NoDup (sessions l) -> (forall s p, In (Execute s p) l -> good d p = true) ->
  exists w, steps d start l = Ok w /\ forall s p, In (Execute s p) l -> waiting w s = false ->
    writes (seen w s) = match waits p with None => if changes p then 1 else 0 | Some _ => 0 end.
Proof.
  intros d l ND GD. destruct (steps_ok d l [] start (start_ok d)) as (w & h & E & (V1 & _) & _ & IFF); [constructor | exact ND | intros s [] | exact GD|].
  exists w. split; [exact E|]. intros s p I H. destruct (V1 s p) as (G & ST); [apply IFF; right; exact I|].
  rewrite (status_free p w s ST H). apply writes_full. apply (good_split _ _ G).
Qed.

(** ** A second statement in the session of one on indexes *)
Lemma after_index : forall d w s i c st p, p <> Nil -> fit d p = true -> match c with Some k => d k = false | None => True end -> st i = Executed ->
  plans w s = Some {| stack := [Op i TAddIndex false c Nil Nil]; sts := st |} ->
  exists w', execute d w s p = Ok w' /\ seen w' s = seen w s /\ pend w' = pend w /\ clients w' s = true.
Proof.
  intros d w s i c st p Np F DR Hi P. unfold execute. rewrite (traverse_all d p F Np), P.
  destruct p as [|i' t' a' c' l' r']; [congruence|]. cbn [rbind stack sts run_stack].
  replace (match c with Some k => d k | None => false end) with false by (destruct c; [symmetry; exact DR | reflexivity]).
  cbn [on_execute]. rewrite Hi, Hi. eexists. split; [reflexivity|]. unfold seen, keep, note. cbn [log pend clients map]. rewrite !app_nil_r, updN_same.
  split; [|split]; reflexivity.
Qed.
Lemma second_statement : forall d s i c p, match c with Some k => d k = false | None => True end -> p <> Nil -> fit d p = true ->
  exists w, steps d start [Execute s (Op i TAddIndex false c Nil Nil); Deliver 0; Execute s p] = Ok w /\
    seen w s = [Ran i; Answer (Some i)] /\ pend w = [] /\ clients w s = true.
Proof.
  intros d s i c p DR Np F. assert (DF : match c with Some k => d k | None => false end = false) by (destruct c; [exact DR | reflexivity]).
  cbn [steps step]. assert (E1 : exists w1, execute d start s (Op i TAddIndex false c Nil Nil) = Ok w1 /\ pend w1 = [(s, CreateIx c)] /\
    log w1 = [(s, Ran i)] /\ clients w1 s = true /\ exists st, st i = Executed /\ plans w1 s = Some {| stack := [Op i TAddIndex false c Nil Nil]; sts := st |}).
  { unfold execute. cbn [size plus traverse spine rbind start plans run_stack]. rewrite DF. cbn [on_execute done andb app].
    unfold upd at 1. rewrite Nat.eqb_refl. eexists. split; [reflexivity|]. split; [reflexivity|]. split; [reflexivity|]. split; [apply updN_same|].
    eexists. split; [|apply updN_same]. unfold upd. rewrite Nat.eqb_refl. reflexivity. }
  destruct E1 as (w1 & E1 & P1 & L1 & C1 & st & Hst & PL). rewrite E1. cbn [rbind]. rewrite P1. cbn [nth_error without]. rewrite PL. cbn [stack].
  unfold answer. cbn [clients]. rewrite C1. cbn [rbind plans susp pend log].
  destruct (after_index d {| clients := updN (clients w1) s false; plans := plans w1; susp := susp w1; pend := []; log := log w1 ++ [(s, Answer (Some i))] |}
    s i c st p Np F DR Hst PL) as (w' & E & A1 & A2 & A3).
  exists w'. rewrite E. cbn [rbind]. split; [reflexivity|]. split; [|split; [exact A2 | exact A3]].
  rewrite A1. unfold seen. cbn [log]. rewrite L1. cbn [app filter fst]. rewrite N.eqb_refl. reflexivity.
Qed.
Lemma on_dropped : forall d s i t a c l r, d c = true -> spine (Op i t a (Some c) l r) = Nil ->
  steps d start [Execute s (Op i t a (Some c) l r)] = Err Throw.
Proof.
  intros d s i t a c l r H E. cbn [steps step]. unfold execute.
  replace (traverse (S (size (Op i t a (Some c) l r))) [Op i t a (Some c) l r] []) with (Ok [Op i t a (Some c) l r]).
  2:{ cbn [size]. cbn [traverse]. rewrite E. reflexivity. }
  cbn [rbind start plans run_stack]. rewrite H. unfold finish, answer, keep. cbn [clients]. rewrite updN_same. reflexivity.
Qed.
Lemma insert_from_other : forall d s a b, a <> b -> d a = false ->
  (exists w, steps d start [Execute s (Op 0 TInsert false (Some a) (Op 1 TRead true (Some b) Nil Nil) Nil)] = Ok w) /\
  steps d start [Execute s (Op 0 TInsert false (Some a) (Op 1 TRead true (Some b) Nil Nil) Nil); Deliver 0] = Err UB.
Proof.
  intros d s a b H Da. cbn [steps step]. unfold execute. cbn [size plus traverse spine rbind start plans run_stack]. rewrite Da.
  cbn [on_execute done upd Nat.eqb andb app]. unfold suspend, keep, note. cbn [clients plans susp pend log rbind].
  split; [eexists; reflexivity|]. cbn [start app map nth_error without found clients plans susp pend log].
  rewrite (updN_other _ _ a _ b) by congruence. reflexivity.
Qed.
