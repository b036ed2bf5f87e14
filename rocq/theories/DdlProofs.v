From Verif Require Import Bytes Outcome DdlModel DdlSpec.
From Coq Require Import Permutation Lia.
Local Open Scope N_scope.

Lemma has_db_ok : forall d l, has_db d l = true <-> In d l.
Proof.
  intros d l. unfold has_db. rewrite existsb_exists. split.
  - intros (x & H & E). apply N.eqb_eq in E. now subst.
  - intros H. exists d. split; [exact H|apply N.eqb_refl].
Qed.
Lemma same_ok : forall a b, same a b = true <-> a = b.
Proof.
  intros [a b] [c d]. unfold same. cbn [fst snd]. rewrite andb_true_iff, !N.eqb_eq. split; [intros [-> ->]; reflexivity|].
  intros H. now injection H.
Qed.
Lemma has_coll_ok : forall c l, has_coll c l = true <-> In c l.
Proof.
  intros c l. unfold has_coll. rewrite existsb_exists. split.
  - intros (x & H & E). apply same_ok in E. now subst.
  - intros H. exists c. split; [exact H|now apply same_ok].
Qed.
Lemma context_some : forall c m p, context c m = Some p -> In (c, p) m.
Proof.
  induction m as [|[x q] m IH]; intros p H; cbn [context] in H; [discriminate|].
  destruct (same c x) eqn:E; [|right; now apply IH]. apply same_ok in E. injection H as <-. subst. now left.
Qed.
Lemma context_none : forall c m, context c m = None <-> ~ In c (map fst m).
Proof.
  induction m as [|[x q] m IH]; cbn [context map fst]; [split; [intros _ []|reflexivity]|].
  destruct (same c x) eqn:E.
  - apply same_ok in E. subst. split; [discriminate|]. intros H. elim H. now left.
  - rewrite IH. cbn [In]. split; [intros H [->|K]; [|tauto]|tauto].
    assert (same c c = true) by now apply same_ok. congruence.
Qed.
Lemma coll_exists_ok : forall st d n, coll_exists st d n = true <-> In d (cdbs st) /\ In (d, n) (ccolls st).
Proof. intros. unfold coll_exists. now rewrite andb_true_iff, has_db_ok, has_coll_ok. Qed.

(** ** Lists of statements that do not get in each other's way *)
Definition excl (L : list (N * stmt)) : Prop :=
  forall x L', Permutation L (x :: L') -> forall y, In y L' -> ~ conflict (snd x) (snd y).
Lemma conflict_sym : forall a b, conflict a b -> conflict b a.
Proof. intros a b [E H]. split; [auto|]. destruct H as [H|[H|[H K]]]; auto. right. right. split; [auto|tauto]. Qed.
Lemma excl_perm : forall L L', Permutation L L' -> excl L -> excl L'.
Proof. intros L L' P H x M Q. apply H. now transitivity L'. Qed.
Lemma excl_tail : forall x L, excl (x :: L) -> excl L.
Proof.
  intros x L H y M Q z Hz. apply (H y (x :: M)); [|now right].
  rewrite Q. apply perm_swap.
Qed.
Lemma excl_head : forall x L y, excl (x :: L) -> In y L -> ~ conflict (snd x) (snd y).
Proof. intros x L y H. apply H. reflexivity. Qed.
Lemma excl_cons : forall z L, excl L -> (forall x, In x L -> ~ conflict (snd x) (snd z)) -> excl (z :: L).
Proof.
  intros z L H F x M P y Hy.
  assert (I : In x (z :: L)) by (apply (Permutation_in x (Permutation_sym P)); now left).
  destruct I as [->|I].
  - apply Permutation_cons_inv in P. intros C. apply (F y); [now apply (Permutation_in y (Permutation_sym P))|].
    now apply conflict_sym.
  - destruct (in_split _ _ I) as (a & b & E). subst L.
    assert (Q : Permutation M (z :: a ++ b)).
    { apply Permutation_cons_inv with x. rewrite <- P. rewrite <- Permutation_middle. apply perm_swap. }
    apply (Permutation_in y Q) in Hy. destruct Hy as [<-|Hy].
    + apply F. exact I.
    + apply (H x (a ++ b)); [symmetry; apply Permutation_middle|exact Hy].
Qed.

(** ** The state of the statements under way *)
Definition on_db (d : N) (s : stmt) : Prop := s = CreateDb d \/ s = DropDb d.
Definition on_coll (d n : N) (s : stmt) : Prop := s = Create d n \/ s = Drop d n.
Record Inv (L : list (N * stmt)) (st : state) (w : world) : Prop := {
  i_excl : excl L;
  i_db : forall d, (forall x, In x L -> ~ on_db d (snd x)) -> (In d (cdbs st) <-> In d (dbs w));
  i_coll : forall d n, (forall x, In x L -> ~ on_db d (snd x) /\ ~ on_coll d n (snd x)) ->
    (In (d, n) (ccolls st) <-> In (d, n) (colls w));
  i_free : forall x d n, In x L -> on_db d (snd x) -> ~ In (d, n) (ccolls st) /\ ~ In (d, n) (colls w);
  i_mem : forall c, In c (map fst (memory st)) <-> In c (colls w);
  i_in : forall d n, In (d, n) (colls w) -> In d (dbs w);
  i_done : forall x, In x L ->
    match snd x with
    | CreateDb d => In d (dbs w) | DropDb d => ~ In d (dbs w)
    | Create d n => In (d, n) (colls w) | Drop d n => ~ In (d, n) (colls w)
    | _ => True
    end;
  i_exec : forall m p, In (m, p) (exec st) ->
    exists d n, (snd m = Read d n \/ snd m = Write d n) /\ In ((d, n), p) (memory st);
  i_dist : distinct st;
  i_next : forall c p, In (c, p) (memory st) -> p < next st
}.

Lemma Inv_perm : forall L L' st w, Permutation L L' -> Inv L st w -> Inv L' st w.
Proof.
  intros L L' st w P [A B C D E F G H J K]. split; auto.
  - now apply excl_perm with L.
  - intros d X. apply B. intros x Hx. apply X. now apply (Permutation_in x P).
  - intros d n X. apply C. intros x Hx. apply X. now apply (Permutation_in x P).
  - intros x d n Hx. apply D. now apply (Permutation_in x (Permutation_sym P)).
  - intros x Hx. apply G. now apply (Permutation_in x (Permutation_sym P)).
Qed.
Lemma on_db_conflict : forall d a b, on_db d a -> db_of b = d -> conflict a b.
Proof. intros d a b [->| ->] E; (split; [now symmetry|left; reflexivity]). Qed.
Lemma on_coll_conflict : forall d n a b, on_coll d n a -> db_of b = d -> coll_of b = Some n -> conflict a b.
Proof.
  intros d n a b [->| ->] E F; (split; [now symmetry|right; right; split; [now symmetry|left; exact I]]).
Qed.
Lemma on_db_dec : forall d s, {on_db d s} + {~ on_db d s}.
Proof.
  intros d s. unfold on_db. destruct s as [x|x|x n|x n|x n|x n]; try (right; intros [E|E]; discriminate);
    destruct (N.eq_dec x d) as [->|Nq]; auto; right; intros [E|E]; try discriminate; injection E; auto.
Qed.

Lemma NoDup_map_filter : forall (A B : Type) (g : A -> B) f (l : list A), NoDup (map g l) -> NoDup (map g (filter f l)).
Proof.
  intros A B g f. induction l as [|x l IH]; intros H; cbn [filter map] in *; [exact H|]. inversion H; subst.
  destruct (f x); [|now apply IH]. cbn [map]. constructor; [|now apply IH].
  intros X. apply in_map_iff in X. destruct X as (y & E & Y). apply filter_In in Y. rewrite <- E in H2. apply H2.
  apply in_map. tauto.
Qed.

(** ** Answers *)
Definition rest (L : list (N * stmt)) : list ((N * stmt) * answer) := map (fun m => (m, Good)) L.

Lemma serial_app : forall a w b, serial w (a ++ b) =
  (fst (serial (fst (serial w a)) b), snd (serial w a) ++ snd (serial (fst (serial w a)) b)).
Proof.
  induction a as [|m a IH]; intros w b; cbn [app serial].
  - cbn [fst snd app]. now destruct (serial w b).
  - destruct (serve w (snd m)) as [w' x]. rewrite IH. destruct (serial w' a) as [w2 y]. cbn [fst snd app]. reflexivity.
Qed.

(** a statement that is answered at once *)
Lemma say_ok : forall L st w m a, Inv L st w -> Inv L (say st m a) w.
Proof. intros L st w m a [A B C D E F G H J K]. split; assumption. Qed.

Lemma arrive_ok : forall st w m, Inv (in_flight st) st w ->
  (forall x, In x (in_flight st) -> ~ conflict (snd x) (snd m)) -> sane w (snd m) ->
  exists st', arrive st m = Ok st' /\ Inv (in_flight st') st' (fst (serve w (snd m))) /\
    Permutation (answers st' ++ rest (in_flight st')) ((m, snd (serve w (snd m))) :: answers st ++ rest (in_flight st)).
Proof.
  intros st w m I PO SA.
  assert (SAY : forall a, in_flight (say st m a) = in_flight st) by reflexivity.
  assert (PSAY : forall a, Permutation (answers (say st m a) ++ rest (in_flight (say st m a)))
    ((m, a) :: answers st ++ rest (in_flight st))).
  { intros a. rewrite SAY. cbn [say answers]. rewrite <- app_assoc. symmetry. apply Permutation_middle. }
  assert (FIN : forall mm nx, Permutation (in_flight (finish st m mm nx)) (m :: in_flight st)).
  { intros mm nx. unfold in_flight. cbn [finish exec fin wal]. rewrite app_assoc, <- !app_assoc. cbn [app].
    rewrite app_assoc. rewrite <- Permutation_middle. now rewrite app_assoc. }
  assert (PFIN : forall st', Permutation (in_flight st') (m :: in_flight st) -> answers st' = answers st ->
    Permutation (answers st' ++ rest (in_flight st')) ((m, Good) :: answers st ++ rest (in_flight st))).
  { intros st' P E. rewrite E. unfold rest. rewrite (Permutation_map (fun m => (m, Good)) P). cbn [map].
    symmetry. apply Permutation_middle. }
  assert (EX : excl (m :: in_flight st)) by (apply excl_cons; [apply I|exact PO]).
  assert (ND : forall x, In x (in_flight st) -> ~ on_db (db_of (snd m)) (snd x)).
  { intros x Hx Q. apply (PO x Hx). now apply on_db_conflict with (db_of (snd m)). }
  pose proof (i_db _ _ _ I _ ND) as CD.
  assert (RW : forall q d n s, m = (q, s) -> s = Read d n \/ s = Write d n ->
    exists st' : state, (if coll_exists st d n
       then match context (d, n) (memory st) with
            | Some p => Ok {| cdbs := cdbs st; ccolls := ccolls st; memory := memory st; next := next st;
                              exec := exec st ++ [(m, p)]; fin := fin st; wal := wal st; answers := answers st |}
            | None => Err Throw
            end
       else Ok (say st m Missing)) = Ok st' /\
      Inv (in_flight st') st' (fst (if in_dec pair_dec (d, n) (colls w) then (w, Good) else (w, Missing))) /\
      Permutation (answers st' ++ rest (in_flight st'))
        ((m, snd (if in_dec pair_dec (d, n) (colls w) then (w, Good) else (w, Missing))) :: answers st ++ rest (in_flight st))).
  { intros q d n s Em Es.
    assert (DO : db_of (snd m) = d) by (subst m; destruct Es; subst s; reflexivity). rewrite DO in *.
    assert (CC : In (d, n) (ccolls st) <-> In (d, n) (colls w)).
    { apply (i_coll _ _ _ I). intros x Hx. split; [now apply ND|]. intros R. apply (PO x Hx).
      apply on_coll_conflict with d n; auto. subst m. destruct Es; subst s; reflexivity. }
    destruct (coll_exists st d n) eqn:Hc.
    - apply coll_exists_ok in Hc. destruct Hc as [_ Hc]. apply CC in Hc.
      destruct (in_dec pair_dec (d, n) (colls w)); [|tauto].
      destruct (context (d, n) (memory st)) as [p|] eqn:CX; [|apply context_none in CX; rewrite (i_mem _ _ _ I) in CX; tauto].
      apply context_some in CX.
      assert (FL : Permutation (map fst (exec st ++ [(m, p)]) ++ fin st ++ wal st) (m :: in_flight st)).
      { unfold in_flight. rewrite map_app. cbn [map fst]. rewrite <- app_assoc. cbn [app]. symmetry. apply Permutation_middle. }
      eexists. split; [reflexivity|]. cbn [fst snd]. split; [|apply PFIN; [exact FL|reflexivity]].
      apply Inv_perm with (m :: in_flight st); [symmetry; exact FL|].
      assert (NDB : forall e, ~ on_db e (snd m)) by (intros e; subst m; destruct Es; subst s; intros [X|X]; discriminate).
      split; cbn [cdbs ccolls memory exec]; try apply I.
      + exact EX.
      + intros e X. apply (i_db _ _ _ I). intros x Hx. apply X. now right.
      + intros e k X. apply (i_coll _ _ _ I). intros x Hx. apply X. now right.
      + intros x e k [<-|Hx] Q; [now apply NDB in Q|]. now apply (i_free _ _ _ I x).
      + intros x [<-|Hx]; [subst m; destruct Es; subst s; exact Logic.I|]. now apply (i_done _ _ _ I).
      + intros m' p' Hm. apply in_app_or in Hm. destruct Hm as [Hm|[Hm|[]]]; [now apply (i_exec _ _ _ I)|].
        injection Hm as <- <-. exists d, n. split; [subst m; exact Es|exact CX].
    - assert (Hn : ~ In (d, n) (colls w)).
      { intros X. assert (coll_exists st d n = true); [|congruence]. apply coll_exists_ok. rewrite CD, CC.
        split; [eapply (i_in _ _ _ I); eauto|exact X]. }
      destruct (in_dec pair_dec (d, n) (colls w)); [tauto|]. eexists. split; [reflexivity|]. cbn [fst snd].
      split; [now apply say_ok|apply PSAY]. }
  destruct m as [q s]. cbn [snd] in *.
  destruct s as [d|d|d n|d n|d n|d n]; cbn [db_of] in *; cbn [arrive snd serve].
  - (* CREATE DATABASE *)
    destruct (has_db d (cdbs st)) eqn:Hd.
    + apply has_db_ok, CD in Hd. destruct (in_dec N.eq_dec d (dbs w)); [|tauto].
      eexists. split; [reflexivity|]. cbn [fst snd]. split; [now apply say_ok|apply PSAY].
    + assert (Hd' : ~ In d (dbs w)) by (rewrite <- CD, <- has_db_ok, Hd; discriminate).
      destruct (in_dec N.eq_dec d (dbs w)); [tauto|]. eexists. split; [reflexivity|]. cbn [fst snd].
      split; [|apply PFIN; [apply FIN|reflexivity]].
      apply Inv_perm with ((q, CreateDb d) :: in_flight st); [symmetry; apply FIN|].
      assert (NC : forall n, ~ In (d, n) (colls w)) by (intros k Hk; apply Hd'; eapply (i_in _ _ _ I); eauto).
      split; cbn [finish cdbs ccolls memory exec dbs colls]; try apply I.
      * exact EX.
      * intros e X. assert (e <> d). { intros ->. apply (X (q, CreateDb d)); [now left|left; reflexivity]. }
        rewrite (i_db _ _ _ I e); [|intros x Hx; apply X; now right]. cbn [In]. split; [tauto|]. intros [E|E]; [congruence|exact E].
      * intros e k X. apply (i_coll _ _ _ I). intros x Hx. apply X. now right.
      * intros x e k [<-|Hx] Q.
        -- cbn [snd] in Q. destruct Q as [Q|Q]; [|discriminate]. injection Q as <-. split; [|apply NC].
           rewrite (i_coll _ _ _ I d k); [apply NC|]. intros y Hy. split; [now apply ND|].
           intros R. apply (PO y Hy). apply conflict_sym. apply on_db_conflict with d; [left; reflexivity|].
           destruct R as [-> | ->]; reflexivity.
        -- now apply (i_free _ _ _ I x).
      * intros e k Hk. right. eapply (i_in _ _ _ I); eauto.
      * intros x [<-|Hx]; cbn [snd]; [now left|]. pose proof (i_done _ _ _ I x Hx) as DN.
        destruct x as [q' s']; cbn [snd] in *. destruct s'; auto; [now right|].
        intros [->|E]; [|tauto]. apply (ND _ Hx). right. reflexivity.
  - (* DROP DATABASE *)
    destruct (has_db d (cdbs st)) eqn:Hd.
    + apply has_db_ok, CD in Hd. destruct (in_dec N.eq_dec d (dbs w)); [|tauto].
      eexists. split; [reflexivity|]. cbn [fst snd]. split; [|apply PFIN; [apply FIN|reflexivity]].
      apply Inv_perm with ((q, DropDb d) :: in_flight st); [symmetry; apply FIN|].
      assert (CO : forall c, In c (filter (fun c => if N.eq_dec (fst c) d then false else true) (colls w)) <-> In c (colls w)).
      { intros [e k]. rewrite filter_In. cbn [fst]. destruct (N.eq_dec e d); [|tauto]. subst. split; [intros [_ X]; discriminate|].
        intros X. elim (SA k). exact X. }
      assert (DB : forall e, In e (remove N.eq_dec d (dbs w)) <-> In e (dbs w) /\ e <> d).
      { intros e. split; [apply in_remove|]. intros [X Y]. now apply in_in_remove. }
      split; cbn [finish cdbs ccolls memory exec dbs colls]; try apply I.
      * exact EX.
      * intros e X. assert (e <> d). { intros ->. apply (X (q, DropDb d)); [now left|right; reflexivity]. }
        rewrite (i_db _ _ _ I e); [|intros x Hx; apply X; now right]. rewrite DB. tauto.
      * intros e k X. rewrite CO. apply (i_coll _ _ _ I). intros x Hx. apply X. now right.
      * intros x e k [<-|Hx] Q; rewrite CO.
        -- cbn [snd] in Q. destruct Q as [Q|Q]; [discriminate|]. injection Q as <-. split; [|apply SA].
           rewrite (i_coll _ _ _ I d k); [apply SA|]. intros y Hy. split; [now apply ND|].
           intros R. apply (PO y Hy). apply conflict_sym. apply on_db_conflict with d; [right; reflexivity|].
           destruct R as [-> | ->]; reflexivity.
        -- now apply (i_free _ _ _ I x).
      * intros c. rewrite CO. apply (i_mem _ _ _ I).
      * intros e k Hk. rewrite CO in Hk. rewrite DB. split; [eapply (i_in _ _ _ I); eauto|]. intros ->. now elim (SA k).
      * intros x [<-|Hx]; cbn [snd]; [rewrite DB; tauto|]. pose proof (i_done _ _ _ I x Hx) as DN.
        destruct x as [q' s']; cbn [snd] in *. destruct s' as [e|e|e k|e k|e k|e k]; auto.
        -- rewrite DB. split; [exact DN|]. intros ->. apply (ND _ Hx). left. reflexivity.
        -- rewrite DB. tauto.
        -- now apply CO.
        -- now rewrite CO.
    + assert (Hd' : ~ In d (dbs w)) by (rewrite <- CD, <- has_db_ok, Hd; discriminate).
      destruct (in_dec N.eq_dec d (dbs w)); [tauto|]. eexists. split; [reflexivity|]. cbn [fst snd].
      split; [now apply say_ok|apply PSAY].
  - (* CREATE COLLECTION *)
    cbn [sane] in SA. destruct (in_dec N.eq_dec d (dbs w)) as [Id|]; [|tauto].
    assert (CC : In (d, n) (ccolls st) <-> In (d, n) (colls w)).
    { apply (i_coll _ _ _ I). intros x Hx. split; [now apply ND|]. intros R. apply (PO x Hx).
      now apply on_coll_conflict with d n. }
    destruct (coll_exists st d n) eqn:Hc.
    + apply coll_exists_ok in Hc. destruct Hc as [_ Hc]. apply CC in Hc.
      destruct (in_dec pair_dec (d, n) (colls w)); [|tauto]. eexists. split; [reflexivity|]. cbn [fst snd].
      split; [now apply say_ok|apply PSAY].
    + assert (Hn : ~ In (d, n) (colls w)).
      { intros X. assert (coll_exists st d n = true); [|congruence]. apply coll_exists_ok. now rewrite CD, CC. }
      destruct (in_dec pair_dec (d, n) (colls w)); [tauto|].
      assert (CX : context (d, n) (memory st) = None) by (apply context_none; now rewrite (i_mem _ _ _ I)).
      rewrite CX. eexists. split; [reflexivity|]. cbn [fst snd].
      split; [|apply PFIN; [apply FIN|reflexivity]].
      apply Inv_perm with ((q, Create d n) :: in_flight st); [symmetry; apply FIN|].
      split; cbn [finish cdbs ccolls memory exec dbs colls]; try apply I.
      * exact EX.
      * intros e X. apply (i_db _ _ _ I). intros x Hx. apply X. now right.
      * intros e k X. cbn [In]. rewrite (i_coll _ _ _ I e k); [|intros x Hx; apply X; now right].
        split; [tauto|]. intros [E|E]; [|exact E]. injection E as <- <-.
        destruct (X (q, Create d n) (or_introl eq_refl)) as [_ Y]. elim Y. left. reflexivity.
      * intros x e k [<-|Hx] Q; [destruct Q; discriminate|]. destruct (i_free _ _ _ I x e k Hx Q) as [A B].
        split; [exact A|]. intros [E|E]; [|tauto]. injection E as <- <-. now apply (ND x Hx).
      * intros c. cbn [map fst In]. now rewrite (i_mem _ _ _ I).
      * intros e k [E|E]; [injection E as <- <-; exact Id|]. eapply (i_in _ _ _ I); eauto.
      * intros x [<-|Hx]; cbn [snd]; [now left|]. pose proof (i_done _ _ _ I x Hx) as DN.
        destruct x as [q' s']; cbn [snd] in *. destruct s' as [e|e|e k|e k|e k|e k]; auto; [now right|].
        intros [E|E]; [|tauto]. injection E as <- <-. apply (PO _ Hx). cbn [snd].
        apply on_coll_conflict with d n; [right|..]; reflexivity.
      * intros m p Hm. destruct (i_exec _ _ _ I m p Hm) as (e & k & Q & R). exists e, k. split; [exact Q|now right].
      * destruct (i_dist _ _ _ I) as [A B]. split; cbn [memory map fst snd finish]; constructor; auto.
        -- now apply context_none.
        -- intros X. apply in_map_iff in X. destruct X as ([c p] & E & X). cbn [snd] in E.
           apply (i_next _ _ _ I) in X. lia.
      * cbn [finish memory next]. intros c p [E|E]; [injection E as <- <-; lia|]. apply (i_next _ _ _ I) in E. lia.
  - (* DROP COLLECTION *)
    assert (CC : In (d, n) (ccolls st) <-> In (d, n) (colls w)).
    { apply (i_coll _ _ _ I). intros x Hx. split; [now apply ND|]. intros R. apply (PO x Hx).
      now apply on_coll_conflict with d n. }
    destruct (coll_exists st d n) eqn:Hc.
    + apply coll_exists_ok in Hc. destruct Hc as [_ Hc]. apply CC in Hc.
      destruct (in_dec pair_dec (d, n) (colls w)); [|tauto].
      destruct (context (d, n) (memory st)) eqn:CX; [|apply context_none in CX; rewrite (i_mem _ _ _ I) in CX; tauto].
      eexists. split; [reflexivity|]. cbn [fst snd]. split; [|apply PFIN; [apply FIN|reflexivity]].
      apply Inv_perm with ((q, Drop d n) :: in_flight st); [symmetry; apply FIN|].
      assert (CO : forall c, In c (remove pair_dec (d, n) (colls w)) <-> In c (colls w) /\ c <> (d, n)).
      { intros e. split; [apply in_remove|]. intros [X Y]. now apply in_in_remove. }
      assert (MM : forall c p, In (c, p) (filter (fun x => negb (same (d, n) (fst x))) (memory st)) <->
                              In (c, p) (memory st) /\ c <> (d, n)).
      { intros c p. rewrite filter_In. cbn [fst]. split; intros [A B]; (split; [exact A|]).
        - intros ->. assert (same (d, n) (d, n) = true) by now apply same_ok. rewrite H in B. discriminate.
        - apply negb_true_iff. destruct (same (d, n) c) eqn:E; [|reflexivity]. apply same_ok in E. congruence. }
      split; cbn [finish cdbs ccolls memory exec dbs colls]; try apply I.
      * exact EX.
      * intros e X. apply (i_db _ _ _ I). intros x Hx. apply X. now right.
      * intros e k X. rewrite CO. rewrite (i_coll _ _ _ I e k); [|intros x Hx; apply X; now right].
        split; [|tauto]. intros A. split; [exact A|]. intros E. injection E as -> ->.
        destruct (X (q, Drop d n) (or_introl eq_refl)) as [_ Y]. elim Y. right. reflexivity.
      * intros x e k [<-|Hx] Q; [destruct Q; discriminate|]. destruct (i_free _ _ _ I x e k Hx Q) as [A B].
        split; [exact A|]. rewrite CO. tauto.
      * intros c. rewrite CO, <- (i_mem _ _ _ I c). split.
        -- intros X. apply in_map_iff in X. destruct X as ([c' p] & <- & X). apply MM in X. cbn [fst].
           split; [|tauto]. apply in_map_iff. exists (c', p). tauto.
        -- intros [X Y]. apply in_map_iff in X. destruct X as ([c' p] & <- & X). apply in_map_iff. exists (c', p).
           split; [reflexivity|]. apply MM. tauto.
      * intros e k Hk. apply CO in Hk. eapply (i_in _ _ _ I). apply Hk.
      * intros x [<-|Hx]; cbn [snd]; [rewrite CO; tauto|]. pose proof (i_done _ _ _ I x Hx) as DN.
        destruct x as [q' s']; cbn [snd] in *. destruct s' as [e|e|e k|e k|e k|e k]; auto.
        -- rewrite CO. split; [exact DN|]. intros E. injection E as -> ->. apply (PO _ Hx). cbn [snd].
           apply on_coll_conflict with d n; [left|..]; reflexivity.
        -- rewrite CO. tauto.
      * intros m p Hm. destruct (i_exec _ _ _ I m p Hm) as (e & k & Q & R). exists e, k. split; [exact Q|].
        apply MM. split; [exact R|]. intros E. injection E as -> ->.
        assert (Hm' : In m (in_flight st)) by (unfold in_flight; apply in_or_app; left; apply in_map_iff; now exists (m, p)).
        apply (PO m Hm'). apply conflict_sym.
        apply on_coll_conflict with d n; [right; reflexivity|..]; destruct Q as [-> | ->]; reflexivity.
      * destruct (i_dist _ _ _ I) as [A B]. split; cbn [memory finish]; now apply NoDup_map_filter.
      * intros c p X. apply MM in X. cbn [finish next]. apply (i_next _ _ _ I c). tauto.
    + assert (Hn : ~ In (d, n) (colls w)).
      { intros X. assert (coll_exists st d n = true); [|congruence]. apply coll_exists_ok. rewrite CD, CC.
        split; [eapply (i_in _ _ _ I); eauto|exact X]. }
      destruct (in_dec pair_dec (d, n) (colls w)); [tauto|]. eexists. split; [reflexivity|]. cbn [fst snd].
      split; [now apply say_ok|apply PSAY].
  - (* SELECT *) exact (RW q d n (Read d n) eq_refl (or_introl eq_refl)).
  - (* INSERT, UPDATE, DELETE *) exact (RW q d n (Write d n) eq_refl (or_intror eq_refl)).
Qed.

(** ** The other events *)
Lemma execute_ok : forall st w, Inv (in_flight st) st w ->
  exists st', execute st = Ok st' /\ Inv (in_flight st') st' w /\ Permutation (in_flight st') (in_flight st) /\
    answers st' = answers st.
Proof.
  intros st w I. unfold execute. destruct (exec st) as [|[m p] r] eqn:E; [now exists st|].
  destruct (i_exec _ _ _ I m p) as (d & n & Q & R); [rewrite E; now left|].
  assert (X : existsb (N.eqb p) (map snd (memory st)) = true).
  { apply existsb_exists. exists p. split; [apply in_map_iff; exists ((d, n), p); auto|apply N.eqb_refl]. }
  rewrite X. eexists. split; [reflexivity|].
  assert (P : Permutation (map fst r ++ (fin st ++ [m]) ++ wal st) (in_flight st)).
  { unfold in_flight. rewrite E. cbn [map fst app]. rewrite <- app_assoc. cbn [app]. rewrite !app_assoc.
    symmetry. apply Permutation_middle. }
  split; [|split; [exact P|reflexivity]].
  apply Inv_perm with (in_flight st); [symmetry; exact P|]. destruct I as [A B C D F G H J K L].
  split; auto. cbn [exec memory]. intros m' p' Hm. apply J. rewrite E. now right.
Qed.

(** a statement other than those on databases and collections is done *)
Lemma drop_rw : forall m L st w, Inv (m :: L) st w -> (exists d n, snd m = Read d n \/ snd m = Write d n) -> Inv L st w.
Proof.
  intros m L st w [A B C D F G H J K O] (d & n & Q).
  assert (NB : forall e, ~ on_db e (snd m)) by (intros e [X|X]; destruct Q; congruence).
  assert (NC : forall e k, ~ on_coll e k (snd m)) by (intros e k [X|X]; destruct Q; congruence).
  split; auto.
  - now apply excl_tail in A.
  - intros e X. apply B. intros x [<-|Hx]; auto.
  - intros e k X. apply C. intros x [<-|Hx]; auto.
  - intros x e k Hx. apply D. now right.
  - intros x Hx. apply H. now right.
Qed.
(** the catalogue is told *)
Lemma told : forall m L st st' w, Inv (m :: L) st w -> update_catalog st (snd m) = (cdbs st', ccolls st') ->
  memory st' = memory st -> next st' = next st -> exec st' = exec st -> Inv L st' w.
Proof.
  intros [q s] L st st' w I U EM EN EE. cbn [snd] in U.
  assert (HD : forall x, In x L -> ~ conflict s (snd x)).
  { intros x Hx. apply (excl_head (q, s) L); [apply I|exact Hx]. }
  assert (TO : excl L) by (eapply excl_tail; apply I).
  assert (T5 : forall c, In c (map fst (memory st')) <-> In c (colls w)) by (rewrite EM; apply I).
  assert (T8 : forall m p, In (m, p) (exec st') ->
    exists d n, (snd m = Read d n \/ snd m = Write d n) /\ In ((d, n), p) (memory st')) by (rewrite EM, EE; apply I).
  assert (T9 : distinct st') by (unfold distinct; rewrite EM; apply I).
  assert (T10 : forall c p, In (c, p) (memory st') -> p < next st') by (rewrite EM, EN; apply I).
  assert (T7 : forall x, In x L -> match snd x with
    | CreateDb d => In d (dbs w) | DropDb d => ~ In d (dbs w)
    | Create d n => In (d, n) (colls w) | Drop d n => ~ In (d, n) (colls w) | _ => True end)
    by (intros x Hx; apply (i_done _ _ _ I); now right).
  pose proof (i_done _ _ _ I (q, s) (or_introl eq_refl)) as DN. cbn [snd] in DN.
  assert (OD : forall d, ~ on_db d s -> (forall x, In x L -> ~ on_db d (snd x)) -> (In d (cdbs st) <-> In d (dbs w))).
  { intros d A B. apply (i_db _ _ _ I). intros x [<-|Hx]; auto. }
  assert (OC : forall d n, ~ on_db d s -> ~ on_coll d n s ->
    (forall x, In x L -> ~ on_db d (snd x) /\ ~ on_coll d n (snd x)) -> (In (d, n) (ccolls st) <-> In (d, n) (colls w))).
  { intros d n A B C. apply (i_coll _ _ _ I). intros x [<-|Hx]; auto. }
  assert (OF : forall x d n, In x L -> on_db d (snd x) -> ~ In (d, n) (ccolls st) /\ ~ In (d, n) (colls w)).
  { intros x d n Hx. apply (i_free _ _ _ I). now right. }
  assert (SF : forall d n, on_db d s -> ~ In (d, n) (ccolls st) /\ ~ In (d, n) (colls w)).
  { intros d n Q. apply (i_free _ _ _ I (q, s)); [now left|exact Q]. }
  destruct s as [d|d|d n|d n|d n|d n]; cbn [update_catalog] in U; injection U as U1 U2.
  - assert (C1 : forall e, In e (cdbs st') <-> e = d \/ In e (cdbs st)).
    { intros e. rewrite <- U1. destruct (has_db d (cdbs st)) eqn:X; cbn [In]; [|intuition congruence].
      apply has_db_ok in X. intuition congruence. }
    split; auto; try (rewrite <- U2).
    + intros e X. rewrite C1. destruct (N.eq_dec e d) as [->|Nq]; [tauto|]. rewrite (OD e); auto; [tauto|].
      intros [Y|Y]; congruence.
    + intros e k X. destruct (N.eq_dec e d) as [->|Nq].
      * destruct (SF d k (or_introl eq_refl)). tauto.
      * apply OC; auto; intros [Y|Y]; congruence.
    + apply OF.
    + apply I.
  - assert (C1 : forall e, In e (cdbs st') <-> e <> d /\ In e (cdbs st)).
    { intros e. rewrite <- U1, filter_In, negb_true_iff, N.eqb_neq. intuition congruence. }
    assert (C2 : forall e k, In (e, k) (ccolls st') <-> In (e, k) (ccolls st)).
    { intros e k. rewrite <- U2, filter_In, negb_true_iff, N.eqb_neq. cbn [fst]. split; [tauto|]. intros X. split; [exact X|].
      intros <-. destruct (SF d k (or_intror eq_refl)). tauto. }
    split; auto.
    + intros e X. rewrite C1. destruct (N.eq_dec e d) as [->|Nq]; [tauto|]. rewrite (OD e); auto; [tauto|].
      intros [Y|Y]; congruence.
    + intros e k X. rewrite C2. destruct (N.eq_dec e d) as [->|Nq].
      * destruct (SF d k (or_intror eq_refl)). tauto.
      * apply OC; auto; intros [Y|Y]; congruence.
    + intros x e k Hx Q. rewrite C2. now apply (OF x).
    + apply I.
  - assert (NL : forall x, In x L -> ~ on_db d (snd x)).
    { intros x Hx Q. apply (HD x Hx), conflict_sym. now apply on_db_conflict with d. }
    assert (Hd : In d (cdbs st)).
    { apply OD; auto; [intros [Y|Y]; discriminate|]. eapply (i_in _ _ _ I); eauto. }
    apply has_db_ok in Hd. rewrite Hd in U2. cbn [andb] in U2.
    assert (C2 : forall c, In c (ccolls st') <-> c = (d, n) \/ In c (ccolls st)).
    { intros c. rewrite <- U2. destruct (has_coll (d, n) (ccolls st)) eqn:X; cbn [negb In]; [|intuition congruence].
      apply has_coll_ok in X. intuition congruence. }
    split; auto; try (rewrite <- U1).
    + intros e X. apply OD; auto. intros [Y|Y]; discriminate.
    + intros e k X. rewrite C2. destruct (pair_dec (e, k) (d, n)) as [->|Nq]; [tauto|].
      rewrite (OC e k); auto; [tauto|intros [Y|Y]; discriminate|]. intros [Y|Y]; [|discriminate]. congruence.
    + intros x e k Hx Q. rewrite C2. destruct (OF x e k Hx Q) as [A B]. split; [|exact B].
      intros [E|E]; [|tauto]. injection E as -> ->. now apply (NL x Hx).
    + apply I.
  - assert (C2 : forall c, In c (ccolls st') <-> c <> (d, n) /\ In c (ccolls st)).
    { intros c. rewrite <- U2, filter_In, negb_true_iff. split.
      - intros [A B]. split; [|exact A]. intros ->. assert (same (d, n) (d, n) = true) by now apply same_ok. congruence.
      - intros [A B]. split; [exact B|]. destruct (same (d, n) c) eqn:X; [|reflexivity]. apply same_ok in X. congruence. }
    split; auto; try (rewrite <- U1).
    + intros e X. apply OD; auto. intros [Y|Y]; discriminate.
    + intros e k X. rewrite C2. destruct (pair_dec (e, k) (d, n)) as [E|Nq].
      * injection E as -> ->. tauto.
      * rewrite (OC e k); auto; [tauto|intros [Y|Y]; discriminate|]. intros [Y|Y]; [discriminate|]. congruence.
    + intros x e k Hx Q. rewrite C2. destruct (OF x e k Hx Q). tauto.
    + apply I.
  - assert (J : Inv L st w) by (apply drop_rw with (q, Read d n); [exact I|exists d, n; now left]).
    split; auto; try (rewrite <- U1); try (rewrite <- U2); apply J.
  - assert (J : Inv L st w) by (apply drop_rw with (q, Write d n); [exact I|exists d, n; now right]).
    split; auto; try (rewrite <- U1); try (rewrite <- U2); apply J.
Qed.

Lemma finished_ok : forall st w, Inv (in_flight st) st w ->
  exists st', finished st = Ok st' /\ Inv (in_flight st') st' w /\
    Permutation (answers st' ++ rest (in_flight st')) (answers st ++ rest (in_flight st)).
Proof.
  intros st w I. unfold finished. destruct (fin st) as [|m r] eqn:E; [now exists st|].
  assert (P : Permutation (in_flight st) (m :: map fst (exec st) ++ r ++ wal st)).
  { unfold in_flight. rewrite E. symmetry. apply Permutation_middle. }
  assert (P2 : Permutation (in_flight st) (map fst (exec st) ++ r ++ wal st ++ [m])).
  { rewrite P. rewrite !app_assoc. apply Permutation_cons_append. }
  assert (PA : Permutation ((answers st ++ [(m, Good)]) ++ rest (map fst (exec st) ++ r ++ wal st))
                           (answers st ++ rest (in_flight st))).
  { rewrite <- app_assoc. apply Permutation_app_head. cbn [app]. unfold rest.
    rewrite (Permutation_map (fun m => (m, Good)) P). reflexivity. }
  pose proof (Inv_perm _ _ _ _ P I) as I1.
  assert (LG : Inv (map fst (exec st) ++ r ++ wal st ++ [m]) {| cdbs := cdbs st; ccolls := ccolls st; memory := memory st;
     next := next st; exec := exec st; fin := r; wal := wal st ++ [m]; answers := answers st |} w).
  { apply Inv_perm with (in_flight st); [exact P2|]. destruct I as [A B C D F G H J K O]. split; auto. }
  assert (PG : Permutation (answers st ++ rest (map fst (exec st) ++ r ++ wal st ++ [m])) (answers st ++ rest (in_flight st))).
  { apply Permutation_app_head. unfold rest. now rewrite (Permutation_map (fun m => (m, Good)) P2). }
  destruct (snd m) as [d|d|d n|d n|d n|d n] eqn:Em; eexists; (split; [reflexivity|]); try (split; [exact LG|exact PG]).
  - split; [|exact PA]. eapply told; [exact I1|rewrite Em; cbn [update_catalog cdbs ccolls fst snd]; reflexivity|..]; reflexivity.
  - split; [|exact PA]. eapply told; [exact I1|rewrite Em; cbn [update_catalog cdbs ccolls fst snd]; reflexivity|..]; reflexivity.
Qed.
Lemma logged_ok : forall st w, Inv (in_flight st) st w ->
  exists st', logged st = Ok st' /\ Inv (in_flight st') st' w /\
    Permutation (answers st' ++ rest (in_flight st')) (answers st ++ rest (in_flight st)).
Proof.
  intros st w I. unfold logged. destruct (wal st) as [|m r] eqn:E; [now exists st|].
  assert (P : Permutation (in_flight st) (m :: map fst (exec st) ++ fin st ++ r)).
  { unfold in_flight. rewrite E. rewrite !app_assoc. symmetry. apply Permutation_middle. }
  eexists. split; [reflexivity|]. split.
  - eapply told; [exact (Inv_perm _ _ _ _ P I)|cbn [cdbs ccolls]; apply surjective_pairing|..]; reflexivity.
  - cbn [answers]. rewrite <- app_assoc. apply Permutation_app_head. cbn [app]. unfold rest.
    rewrite (Permutation_map (fun m => (m, Good)) P). reflexivity.
Qed.

(** ** Runs *)
Lemma run_ok : forall es st w, Inv (in_flight st) st w -> polite st w es ->
  exists st', run st es = Ok st' /\ Inv (in_flight st') st' (fst (serial w (sends es))) /\
    Permutation (answers st' ++ rest (in_flight st')) (answers st ++ rest (in_flight st) ++ snd (serial w (sends es))).
Proof.
  induction es as [|e es IH]; intros st w I PO; cbn [run sends serial fst snd].
  - exists st. split; [reflexivity|]. split; [exact I|]. now rewrite app_nil_r.
  - cbn [polite] in PO. destruct PO as [P1 P2]. destruct e as [m| | |]; cbn [step] in *.
    + destruct P1 as [P1 SA]. destruct (arrive_ok st w m I P1 SA) as (s1 & R & I1 & Q). rewrite R in *. cbn [rbind].
      destruct (IH s1 _ I1 P2) as (s2 & R2 & I2 & Q2). exists s2. split; [exact R2|]. cbn [serial].
      destruct (serve w (snd m)) as [w' a]. cbn [fst snd] in *. destruct (serial w' (sends es)) as [w2 as_]. cbn [fst snd] in *.
      split; [exact I2|]. rewrite Q2, app_assoc, Q, app_assoc. cbn [app]. rewrite <- Permutation_middle. reflexivity.
    + destruct (execute_ok st w I) as (s1 & R & I1 & Q & A). rewrite R in *. cbn [rbind].
      destruct (IH s1 _ I1 P2) as (s2 & R2 & I2 & Q2). exists s2. split; [exact R2|]. split; [exact I2|]. rewrite Q2, A.
      apply Permutation_app_head, Permutation_app_tail. unfold rest. now rewrite (Permutation_map (fun m => (m, Good)) Q).
    + destruct (finished_ok st w I) as (s1 & R & I1 & Q). rewrite R in *. cbn [rbind].
      destruct (IH s1 _ I1 P2) as (s2 & R2 & I2 & Q2). exists s2. split; [exact R2|]. split; [exact I2|].
      now rewrite Q2, app_assoc, Q, <- app_assoc.
    + destruct (logged_ok st w I) as (s1 & R & I1 & Q). rewrite R in *. cbn [rbind].
      destruct (IH s1 _ I1 P2) as (s2 & R2 & I2 & Q2). exists s2. split; [exact R2|]. split; [exact I2|].
      now rewrite Q2, app_assoc, Q, <- app_assoc.
Qed.
Lemma start_ok : Inv (in_flight start) start nothing.
Proof.
  split; cbn [in_flight start nothing exec fin wal map app cdbs ccolls memory dbs colls]; try tauto.
  - intros x L P. apply Permutation_nil in P. discriminate.
  - intros x [].
  - intros m p [].
  - split; constructor.
  - intros c p [].
Qed.

Lemma serve_all : forall es, polite start nothing es ->
  exists st, run start es = Ok st /\
    Permutation (answers st ++ map (fun m => (m, Good)) (in_flight st)) (snd (serial nothing (sends es))) /\
    (in_flight st = [] -> agrees st (fst (serial nothing (sends es)))) /\ distinct st.
Proof.
  intros es PO. destruct (run_ok es start nothing start_ok PO) as (st & R & I & P). exists st. split; [exact R|].
  split; [exact P|]. split; [|apply I]. intros E. rewrite E in I. split; [|split].
  - intros d. apply (i_db _ _ _ I). intros x [].
  - intros [d n]. apply (i_coll _ _ _ I). intros x [].
  - apply I.
Qed.

(** ** Every statement is answered in the end *)
Lemma run_app : forall a st b, run st (a ++ b) = do s <- run st a; run s b.
Proof. induction a as [|e a IH]; intros st b; cbn [app run rbind]; [reflexivity|]. destruct (step st e); cbn [rbind]; auto. Qed.
Lemma execs_ok : forall n st w, Inv (in_flight st) st w -> (length (exec st) <= n)%nat ->
  exists st', run st (repeat Execute n) = Ok st' /\ Inv (in_flight st') st' w /\ exec st' = [] /\
    (length (in_flight st') <= length (in_flight st))%nat.
Proof.
  induction n as [|n IH]; intros st w I Hl; cbn [repeat run step].
  - exists st. split; [reflexivity|]. split; [exact I|]. destruct (exec st); [auto|]. cbn [length] in Hl. lia.
  - destruct (execute_ok st w I) as (s1 & R & I1 & Q & A). rewrite R. cbn [rbind].
    destruct (IH s1 w I1) as (s2 & R2 & I2 & E & L).
    + unfold execute in R. destruct (exec st) as [|[m p] r] eqn:Ex; [injection R as <-; rewrite Ex; cbn; lia|].
      destruct (existsb (N.eqb p) (map snd (memory st))); [|discriminate]. injection R as <-. cbn [exec length] in *. lia.
    + exists s2. split; [exact R2|]. split; [exact I2|]. split; [exact E|]. now rewrite <- (Permutation_length Q).
Qed.
Lemma fins_ok : forall n st w, Inv (in_flight st) st w -> exec st = [] -> (length (fin st) <= n)%nat ->
  exists st', run st (repeat Finished n) = Ok st' /\ Inv (in_flight st') st' w /\ exec st' = [] /\ fin st' = [] /\
    (length (in_flight st') <= length (in_flight st))%nat.
Proof.
  induction n as [|n IH]; intros st w I E Hl; cbn [repeat run step].
  - exists st. split; [reflexivity|]. split; [exact I|]. destruct (fin st); [auto|]. cbn [length] in Hl. lia.
  - destruct (finished_ok st w I) as (s1 & R & I1 & Q). rewrite R. cbn [rbind].
    assert (F : exec s1 = [] /\ (length (fin s1) <= n)%nat /\ (length (in_flight s1) <= length (in_flight st))%nat).
    { unfold finished in R. unfold in_flight. destruct (fin st) as [|m r] eqn:Ef.
      - injection R as <-. rewrite E, Ef. split; [reflexivity|cbn; lia].
      - cbn [length] in Hl. destruct (snd m); injection R as <-; cbn [exec fin wal]; rewrite E; cbn [map app];
          (split; [reflexivity|]); rewrite ?app_length; cbn [length app]; rewrite ?app_length; cbn [length]; lia. }
    destruct F as (E1 & L1 & L2). destruct (IH s1 w I1 E1 L1) as (s2 & R2 & I2 & E2 & F2 & L).
    exists s2. split; [exact R2|]. split; [exact I2|]. split; [exact E2|]. split; [exact F2|]. lia.
Qed.
Lemma logs_ok : forall n st w, Inv (in_flight st) st w -> exec st = [] -> fin st = [] -> (length (wal st) <= n)%nat ->
  exists st', run st (repeat Logged n) = Ok st' /\ in_flight st' = [].
Proof.
  induction n as [|n IH]; intros st w I E F Hl; cbn [repeat run step].
  - exists st. split; [reflexivity|]. unfold in_flight. rewrite E, F. destruct (wal st); [auto|]. cbn [length] in Hl. lia.
  - destruct (logged_ok st w I) as (s1 & R & I1 & Q). rewrite R. cbn [rbind].
    unfold logged in R. destruct (wal st) as [|m r] eqn:Ew.
    + injection R as <-. apply (IH st w I E F). rewrite Ew. cbn. lia.
    + injection R as <-. apply (IH _ w I1); cbn [exec fin wal] in *; auto. cbn [length] in Hl. lia.
Qed.
Lemma answered : forall es st, polite start nothing es -> run start es = Ok st ->
  exists st', run st (drain (length (in_flight st))) = Ok st' /\ in_flight st' = [].
Proof.
  intros es st PO R. destruct (run_ok es start nothing start_ok PO) as (s & R' & I & _). rewrite R in R'. injection R' as <-.
  set (n := length (in_flight st)).
  destruct (execs_ok n st _ I) as (s1 & R1 & I1 & E1 & L1).
  { unfold n, in_flight. rewrite app_length, map_length. lia. }
  assert (B1 : (length (fin s1) <= n)%nat).
  { unfold in_flight in L1 at 1. rewrite !app_length in L1. unfold n. lia. }
  destruct (fins_ok n s1 _ I1 E1 B1) as (s2 & R2 & I2 & E2 & F2 & L2).
  destruct (logs_ok n s2 _ I2 E2 F2) as (s3 & R3 & F3).
  { unfold in_flight in L2 at 1. rewrite !app_length in L2. unfold n. lia. }
  exists s3. split; [|exact F3]. unfold drain. rewrite run_app, R1. cbn [rbind]. rewrite run_app, R2. exact R3.
Qed.

(** ** Where it fails *)
Definition made : list event := [Send (1, CreateDb 7); Finished; Logged].
Definition filled : list event := made ++ [Send (1, Create 7 8); Finished; Logged].
Lemma race : exists es0 es st st' w a b,
  run start es0 = Ok st /\ in_flight st = [] /\ agrees st w /\
  run st es = Ok st' /\ sends es = [a; b] /\ in_flight st' = [] /\
  forall ms, Permutation [a; b] ms -> ~ Permutation (answers st') (answers st ++ snd (serial w ms)).
Proof.
  exists made, ([Send (1, Create 7 8); Send (2, Create 7 8)] ++ drain 2).
  do 2 eexists. exists (World [7] []), (1, Create 7 8), (2, Create 7 8).
  split; [vm_compute; reflexivity|]. split; [reflexivity|]. split; [cbv [agrees cdbs ccolls memory dbs colls map]; tauto|].
  split; [vm_compute; reflexivity|]. split; [reflexivity|]. split; [reflexivity|].
  intros ms P Q. apply Permutation_length_2_inv in P. destruct P as [-> | ->]; vm_compute in Q;
  (apply Permutation_sym in Q; match type of Q with Permutation (?x :: _) _ => apply Permutation_cons_inv in Q end;
   match type of Q with Permutation [_; ?y] _ => assert (I : In y [((1, Create 7 8), Good); ((2, Create 7 8), Good)])
     by (apply (Permutation_in y Q); right; left; reflexivity) end;
   destruct I as [I|[I|[]]]; discriminate).
Qed.
Lemma twice : exists es, run start es = Err Throw.
Proof. exists (filled ++ [Send (1, Drop 7 8); Send (2, Drop 7 8)]). vm_compute. reflexivity. Qed.
Lemma dangling : exists es, run start es = Err UB.
Proof. exists (filled ++ [Send (1, Read 7 8); Send (2, Drop 7 8); Execute]). vm_compute. reflexivity. Qed.
Lemma nowhere : exists es st, run start es = Ok st /\ in_flight st = [] /\
  answers st = [((1, Create 7 8), Good); ((1, Read 7 8), Missing)] /\
  snd (serial nothing (sends es)) = [((1, Create 7 8), Missing); ((1, Read 7 8), Missing)] /\
  ~ In (7, 8) (ccolls st) /\ In (7, 8) (map fst (memory st)).
Proof.
  exists [Send (1, Create 7 8); Finished; Logged; Send (1, Read 7 8)]. eexists. split; [vm_compute; reflexivity|].
  split; [reflexivity|]. split; [reflexivity|]. split; [vm_compute; reflexivity|]. split; [intros []|now left].
Qed.
