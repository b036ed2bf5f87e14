(** Proofs about calls from several threads. *)
From Coq Require Import Arith Sorting.Permutation.
From Verif Require Import WrapModel WrapSpec.

Record inv (st : state) : Prop := {
  i_flag : forall t c, registered (pcs st t) = Some c -> flags st (cs c) <> None;
  i_one : forall t u c d, registered (pcs st t) = Some c -> registered (pcs st u) = Some d -> cs c = cs d -> t = u;
  i_owner : forall s, flags st s <> None -> exists t c, registered (pcs st t) = Some c /\ cs c = s;
  i_flight : forall c, In c (flight st) -> flags st (cs c) = Some false /\ exists t, waiting (pcs st t) = Some c;
  i_once : NoDup (map cs (flight st));
  i_down : forall t c, waiting (pcs st t) = Some c -> flags st (cs c) = Some false -> In c (flight st);
  i_unsent : forall t c, pcs st t = Approved c -> flags st (cs c) = Some false;
  i_up : forall t c, waiting (pcs st t) = Some c -> flags st (cs c) = Some true ->
           match ck c with Cursor => cursor st = Some (cr c) | Size => size st = cr c | Load => True end;
  i_single : forall t u c d, waiting (pcs st t) = Some c -> flags st (cs c) = Some true -> waiting (pcs st u) = Some d ->
           flags st (cs d) = Some true -> ck c = ck d -> ck c = Load \/ t = u;
  i_sleep : forall t c, pcs st t = Asleep c -> flags st (cs c) = Some true -> ck c = Load;
  i_holds : forall t c, pcs st t = Holding c -> holder st = Some t;
  i_holder : forall t, holder st = Some t -> exists c, pcs st t = Holding c /\ (flags st (cs c) = Some true -> ck c = Load);
  i_log : Forall own_answer (log st) }.

Lemma inv_start : inv start.
Proof.
  constructor; cbn; try (intros; discriminate); try contradiction; constructor.
Qed.

Lemma waiting_registered p c : waiting p = Some c -> registered p = Some c.
Proof. destruct p; cbn; congruence. Qed.
Lemma registered_wake p : registered (wake p) = registered p.
Proof. destruct p; reflexivity. Qed.
Lemma waiting_wake p : waiting (wake p) = waiting p.
Proof. destruct p; reflexivity. Qed.

Ltac at_t t u := unfold at_thread in *; destruct (Nat.eqb_spec u t) as [-> |?].

(** A step that changes nothing but where one thread is, both places with the same registered and waiting call. *)
Lemma inv_move st t p : inv st -> registered p = registered (pcs st t) -> waiting p = waiting (pcs st t) ->
  (forall c, p = Approved c -> pcs st t = Approved c) ->
  (forall c, p = Asleep c -> flags st (cs c) = Some true -> ck c = Load) ->
  forall h, (forall c, p = Holding c -> h = Some t) -> (forall u c, u <> t -> pcs st u = Holding c -> h = Some u) ->
  (forall u, h = Some u -> exists c, at_thread (pcs st) t p u = Holding c /\ (flags st (cs c) = Some true -> ck c = Load)) ->
  inv {| pcs := at_thread (pcs st) t p; flags := flags st; flight := flight st; cursor := cursor st; size := size st; holder := h; log := log st |}.
Proof.
  intros I R W A S h H1 H2 H3.
  assert (RR : forall u, registered (at_thread (pcs st) t p u) = registered (pcs st u)) by (intros u; at_t t u; auto).
  assert (WW : forall u, waiting (at_thread (pcs st) t p u) = waiting (pcs st u)) by (intros u; at_t t u; auto).
  constructor; cbn [pcs flags flight cursor size holder log]; intros *.
  - rewrite RR. apply I.
  - rewrite !RR. apply I.
  - intros F. destruct (i_owner _ I s F) as (u & c & X & Y). exists u, c. rewrite RR. auto.
  - intros F. destruct (i_flight _ I c F) as (X & u & Y). split; [exact X|]. exists u. rewrite WW. exact Y.
  - apply I.
  - rewrite WW. apply I.
  - at_t t t0; [|apply I]. intros X. apply (i_unsent _ I t). apply A, X.
  - rewrite WW. apply I.
  - rewrite !WW. apply I.
  - at_t t t0; [apply S|apply I].
  - at_t t t0; [apply H1|]. intros X. eapply H2; eauto.
  - apply H3.
  - apply I.
Qed.

Lemma inv_flags st f : inv st -> (forall s, f s = flags st s) ->
  inv {| pcs := pcs st; flags := f; flight := flight st; cursor := cursor st; size := size st; holder := holder st; log := log st |}.
Proof.
  intros I E. constructor; cbn [pcs flags flight cursor size holder log].
  - intros t c. rewrite E. apply I.
  - apply I.
  - intros s. rewrite E. apply I.
  - intros c. rewrite E. apply I.
  - apply I.
  - intros t c. rewrite E. apply I.
  - intros t c. rewrite E. apply I.
  - intros t c. rewrite E. apply I.
  - intros t u c d. rewrite !E. apply I.
  - intros t c. rewrite E. apply I.
  - apply I.
  - intros t H. destruct (i_holder _ I t H) as (c & X). exists c. rewrite E. exact X.
  - apply I.
Qed.

Lemma inv_step st e st' : inv st -> calm_at st e -> step st e = Some st' -> inv st'.
Proof.
  intros I C E. destruct e; cbn [step] in E.
  - (* ECall *) destruct (pcs st t) eqn:P; try discriminate. injection E as <-. apply inv_move; rewrite ?P; trivial; try discriminate.
    + intros u c0 N. apply I.
    + intros u X. destruct (i_holder _ I u X) as (d & Y & Z). exists d. at_t t u; [congruence|auto].
  - (* ESet *) destruct (pcs st t) as [|c| | | |] eqn:P; try discriminate. cbn [calm_at] in C. specialize (C c P).
    unfold set_value in E. cbn [orb] in E. destruct (flags st (cs c)) as [[|]|] eqn:F; [contradiction| |].
    + injection E as <-.
      assert (FF : forall s, at_session (flags st) (cs c) (Some false) s = flags st s)
        by (intros s; unfold at_session; destruct (N.eqb_spec s (cs c)) as [-> |]; congruence).
      set (c' := {| cs := fresh; ck := ck c; cr := cr c |}).
      assert (I' : inv (with_pcs st (at_thread (pcs st) t (Init c')))).
      { apply inv_move; rewrite ?P; trivial; try discriminate.
        - intros u d N. apply I.
        - intros u X. destruct (i_holder _ I u X) as (d & Y & Z). exists d. at_t t u; [congruence|auto]. }
      exact (inv_flags _ _ I' FF).
    + injection E as <-.
      assert (NO : forall u d, registered (pcs st u) = Some d -> cs d <> cs c).
      { intros u d X Y. apply (i_flag _ I u d X). congruence. }
      assert (FD : forall u d, registered (pcs st u) = Some d -> at_session (flags st) (cs c) (Some false) (cs d) = flags st (cs d)).
      { intros u d X. unfold at_session. destruct (N.eqb_spec (cs d) (cs c)); [|reflexivity]. exfalso. eapply NO; eauto. }
      assert (FC : at_session (flags st) (cs c) (Some false) (cs c) = Some false) by (unfold at_session; rewrite N.eqb_refl; reflexivity).
      assert (W : forall u, waiting (at_thread (pcs st) t (Approved c) u) = waiting (pcs st u)) by (intros u; at_t t u; rewrite ?P; reflexivity).
      constructor; cbn [pcs flags flight cursor size holder log]; intros *.
      * at_t t t0; cbn [registered]; intros X; [injection X as <-; rewrite FC; discriminate|]. rewrite (FD _ _ X). apply (i_flag _ I _ _ X).
      * at_t t t0; at_t t u; cbn [registered]; intros X Y Q; trivial.
        -- injection X as <-. exfalso. apply (NO _ _ Y). auto.
        -- injection Y as <-. exfalso. apply (NO _ _ X). auto.
        -- eapply (i_one _ I); eauto.
      * unfold at_session. destruct (N.eqb_spec s (cs c)) as [-> |N]; intros X.
        -- exists t, c. unfold at_thread. rewrite Nat.eqb_refl. auto.
        -- destruct (i_owner _ I s X) as (u & d & Y & Z). exists u, d. at_t t u; [rewrite P in Y; discriminate|auto].
      * intros X. destruct (i_flight _ I c0 X) as (Y & u & Z). rewrite (FD u) by (apply waiting_registered; trivial). split; [exact Y|].
        exists u. rewrite W. exact Z.
      * apply I.
      * rewrite W. intros X. rewrite (FD t0) by (apply waiting_registered; trivial). apply (i_down _ I _ _ X).
      * at_t t t0; [intros X; injection X as <-; exact FC|]. intros X. rewrite (FD t0) by (rewrite X; reflexivity). eapply (i_unsent _ I); eauto.
      * rewrite W. intros X. rewrite (FD t0) by (apply waiting_registered; trivial). apply (i_up _ I _ _ X).
      * rewrite !W. intros X Y Z Q. rewrite (FD t0) in Y by (apply waiting_registered; trivial). rewrite (FD u) in Q by (apply waiting_registered; trivial).
        eapply (i_single _ I); eauto.
      * at_t t t0; [discriminate|]. intros X. rewrite (FD t0) by (rewrite X; reflexivity). apply (i_sleep _ I _ _ X).
      * at_t t t0; [discriminate|apply I].
      * intros X. destruct (i_holder _ I t0 X) as (d & Y & Z). exists d. at_t t t0; [congruence|]. split; [exact Y|].
        rewrite (FD t0) by (rewrite Y; reflexivity). exact Z.
      * apply I.
  - (* ESend *) destruct (pcs st t) as [| |c| | |] eqn:P; try discriminate. injection E as <-.
    assert (RR : forall u, registered (at_thread (pcs st) t (Trying c) u) = registered (pcs st u)) by (intros u; at_t t u; rewrite ?P; reflexivity).
    assert (W : forall u, u <> t -> waiting (at_thread (pcs st) t (Trying c) u) = waiting (pcs st u)) by (intros u N; at_t t u; [contradiction|reflexivity]).
    assert (WT : waiting (at_thread (pcs st) t (Trying c) t) = Some c) by (unfold at_thread; rewrite Nat.eqb_refl; reflexivity).
    assert (RT : registered (pcs st t) = Some c) by (rewrite P; reflexivity).
    assert (WP : forall u d, waiting (pcs st u) = Some d -> u <> t) by (intros u d X ->; rewrite P in X; discriminate).
    pose proof (i_unsent _ I t c P) as FC.
    constructor; cbn [pcs flags flight cursor size holder log]; intros *.
    + rewrite RR. apply I.
    + rewrite !RR. apply I.
    + intros F. destruct (i_owner _ I s F) as (u & d & X & Y). exists u, d. rewrite RR. auto.
    + intros X. apply in_app_or in X. destruct X as [X|[<-|[]]].
      * destruct (i_flight _ I c0 X) as (Y & u & Z). split; [exact Y|]. exists u. rewrite W; eauto.
      * split; [exact FC|]. eauto.
    + rewrite map_app. cbn [map]. apply (Permutation_NoDup (Permutation_cons_append _ _)). constructor; [|apply I].
      intros X. apply in_map_iff in X as (d & X & Y). destruct (i_flight _ I d Y) as (_ & u & Z).
      apply (WP _ _ Z). eapply (i_one _ I); [apply waiting_registered; exact Z|exact RT|exact X].
    + destruct (Nat.eq_dec t0 t) as [-> |N].
      * rewrite WT. intros X _. injection X as <-. apply in_or_app. right. left. reflexivity.
      * rewrite W by trivial. intros X Y. apply in_or_app. left. eapply (i_down _ I); eauto.
    + at_t t t0; [discriminate|apply I].
    + destruct (Nat.eq_dec t0 t) as [-> |N].
      * rewrite WT. intros X Y. injection X as <-. congruence.
      * rewrite W by trivial. apply I.
    + destruct (Nat.eq_dec t0 t) as [-> |N]; [rewrite WT; intros X Y; injection X as <-; congruence|].
      destruct (Nat.eq_dec u t) as [-> |N']; [rewrite WT; intros _ _ X Y; injection X as <-; congruence|].
      rewrite !W by trivial. apply I.
    + at_t t t0; [discriminate|apply I].
    + at_t t t0; [discriminate|apply I].
    + intros X. destruct (i_holder _ I t0 X) as (d & Y & Z). exists d. at_t t t0; [congruence|auto].
    + apply I.
  - (* EReply *) destruct (nth_error (flight st) before) as [c|] eqn:F; [|discriminate]. cbn [calm_at] in C.
    destruct (nth_error_split _ _ F) as (l1 & l2 & L & LN). subst before.
    assert (RE : firstn (length l1) (flight st) ++ skipn (length l1 + 1) (flight st) = l1 ++ l2).
    { rewrite L, firstn_app, firstn_all, Nat.sub_diag. cbn [firstn]. rewrite app_nil_r. f_equal.
      replace (length l1 + 1) with (length (l1 ++ [c])) by (rewrite app_length; reflexivity).
      replace (l1 ++ c :: l2) with ((l1 ++ [c]) ++ l2) by (rewrite <- app_assoc; reflexivity).
      rewrite skipn_app, skipn_all, Nat.sub_diag. reflexivity. }
    rewrite RE in E. clear RE.
    assert (IC : In c (flight st)) by (rewrite L; apply in_elt).
    destruct (i_flight _ I c IC) as (FC & w & WC).
    assert (ND : ~ In (cs c) (map cs (l1 ++ l2)) /\ NoDup (map cs (l1 ++ l2))).
    { pose proof (i_once _ I) as X. rewrite L, map_app in X. cbn [map] in X. rewrite map_app. split; [apply NoDup_remove_2; trivial|eapply NoDup_remove_1; eauto]. }
    assert (ST : st' = {| pcs := fun t => wake (pcs st t); flags := at_session (flags st) (cs c) (Some true); flight := l1 ++ l2;
            cursor := match ck c with Cursor => Some (cr c) | _ => cursor st end;
            size := match ck c with Size => cr c | _ => size st end; holder := holder st; log := log st |} /\ (holder st = None \/ ck c = Load)).
    { unfold reply in E. destruct (ck c), (holder st); try discriminate; injection E as <-; auto. }
    clear E. destruct ST as [-> HL].
    assert (FS : forall s, s <> cs c -> at_session (flags st) (cs c) (Some true) s = flags st s).
    { intros s N. unfold at_session. destruct (N.eqb_spec s (cs c)); [contradiction|reflexivity]. }
    assert (FT : at_session (flags st) (cs c) (Some true) (cs c) = Some true) by (unfold at_session; rewrite N.eqb_refl; reflexivity).
    assert (WS : forall t d, waiting (pcs st t) = Some d -> cs d = cs c -> d = c).
    { intros t d X Y. assert (t = w) by (eapply (i_one _ I); [apply waiting_registered; exact X|apply waiting_registered; exact WC|exact Y]).
      subst t. congruence. }
    constructor; cbn [pcs flags flight cursor size holder log]; intros *.
    + rewrite registered_wake. intros X. destruct (N.eq_dec (cs c0) (cs c)) as [Q|Q]; [rewrite Q, FT; discriminate|rewrite FS by trivial].
      eapply (i_flag _ I); eauto.
    + rewrite !registered_wake. apply I.
    + intros X. assert (Y : flags st s <> None) by (destruct (N.eq_dec s (cs c)) as [-> |Q]; [congruence|rewrite FS in X; trivial]).
      destruct (i_owner _ I s Y) as (u & d & Z & Q). exists u, d. rewrite registered_wake. auto.
    + intros X. assert (Q : cs c0 <> cs c) by (intros Q; apply (proj1 ND); rewrite <- Q; apply in_map; trivial).
      rewrite FS by trivial. assert (Y : In c0 (flight st)) by (rewrite L; apply in_app_or in X; apply in_or_app; cbn; intuition).
      destruct (i_flight _ I c0 Y) as (Z & u & V). split; [exact Z|]. exists u. rewrite waiting_wake. exact V.
    + apply ND.
    + rewrite waiting_wake. intros X Y. destruct (N.eq_dec (cs c0) (cs c)) as [Q|Q]; [rewrite Q, FT in Y; discriminate|rewrite FS in Y by trivial].
      pose proof (i_down _ I _ _ X Y) as Z. rewrite L in Z. apply in_app_or in Z. apply in_or_app. cbn in Z. intuition congruence.
    + intros X. destruct (pcs st t) eqn:P; cbn [wake] in X; try discriminate. injection X as ->.
      assert (Q : cs c0 <> cs c).
      { intros Q. assert (t = w) by (eapply (i_one _ I); [rewrite P; reflexivity|apply waiting_registered; exact WC|exact Q]). subst t. rewrite P in WC. discriminate. }
      rewrite FS by trivial. eapply (i_unsent _ I); eauto.
    + rewrite waiting_wake. intros X Y. destruct (N.eq_dec (cs c0) (cs c)) as [Q|Q].
      * rewrite (WS _ _ X Q). destruct (ck c); auto.
      * rewrite FS in Y by trivial. pose proof (i_up _ I _ _ X Y) as Z. specialize (C c t c0 F X Y).
        destruct (ck c0), (ck c); auto; specialize (C eq_refl); discriminate.
    + rewrite !waiting_wake. intros X Y Z V K. destruct (N.eq_dec (cs c0) (cs c)) as [Q|Q]; destruct (N.eq_dec (cs d) (cs c)) as [Q'|Q'].
      * right. eapply (i_one _ I); [apply waiting_registered; exact X|apply waiting_registered; exact Z|congruence].
      * left. rewrite FS in V by trivial. rewrite (WS _ _ X Q) in K |- *. exact (C c u d F Z V (eq_sym K)).
      * left. rewrite FS in Y by trivial. rewrite (WS _ _ Z Q') in K. rewrite K. exact (C c t c0 F X Y K).
      * rewrite FS in Y, V by trivial. eapply (i_single _ I); eauto.
    + intros X. destruct (pcs st t); cbn [wake] in X; discriminate.
    + intros X. destruct (pcs st t) eqn:P; cbn [wake] in X; try discriminate. injection X as ->. eapply (i_holds _ I); eauto.
    + intros X. destruct HL as [HL|HL]; [congruence|]. destruct (i_holder _ I t X) as (d & Y & Z). exists d. rewrite Y. split; [reflexivity|].
      destruct (N.eq_dec (cs d) (cs c)) as [Q|Q]; [|rewrite FS by trivial; exact Z].
      intros _. rewrite (WS t d); trivial. rewrite Y. reflexivity.
    + apply I.
  - (* ECheck *) destruct (pcs st t) as [| | |c| |] eqn:P; try discriminate. destruct (holder st) eqn:H; [discriminate|].
    assert (WT : waiting (pcs st t) = Some c) by (rewrite P; reflexivity).
    assert (RT : registered (pcs st t) = Some c) by (rewrite P; reflexivity).
    assert (NH : forall u d, pcs st u <> Holding d) by (intros u d X; pose proof (i_holds _ I _ _ X); congruence).
    destruct (flags st (cs c)) as [[|]|] eqn:FC; injection E as <-.
    + assert (ON : forall u d, u <> t -> registered (pcs st u) = Some d -> cs d <> cs c).
      { intros u d N X Y. apply N. eapply (i_one _ I); eauto. }
      assert (FS : forall s, s <> cs c -> at_session (flags st) (cs c) None s = flags st s).
      { intros s N. unfold at_session. destruct (N.eqb_spec s (cs c)); [contradiction|reflexivity]. }
      constructor; cbn [finish pcs flags flight cursor size holder log]; intros *.
      * at_t t t0; [discriminate|]. intros X. rewrite FS by eauto. apply (i_flag _ I _ _ X).
      * at_t t t0; [discriminate|]. at_t t u; [discriminate|]. apply I.
      * unfold at_session. destruct (N.eqb_spec s (cs c)) as [-> |N]; [intros X; contradiction|]. intros X.
        destruct (i_owner _ I s X) as (u & d & Y & Z). exists u, d. at_t t u; [rewrite RT in Y; congruence|auto].
      * intros X. destruct (i_flight _ I c0 X) as (Y & u & Z).
        assert (N : u <> t) by (intros ->; congruence).
        rewrite FS by (eapply ON; eauto using waiting_registered). split; [exact Y|]. exists u. at_t t u; [contradiction|exact Z].
      * apply I.
      * at_t t t0; [discriminate|]. intros X. rewrite FS by (eapply ON; eauto using waiting_registered). eapply (i_down _ I); eauto.
      * at_t t t0; [discriminate|]. intros X. rewrite FS by (eapply ON; eauto; rewrite X; reflexivity). eapply (i_unsent _ I); eauto.
      * at_t t t0; [discriminate|]. intros X. rewrite FS by (eapply ON; eauto using waiting_registered). intros Y.
        pose proof (i_up _ I _ _ X Y) as Z. destruct (ck c0) eqn:K; trivial. destruct (ck c) eqn:K'; trivial.
        destruct (i_single _ I t0 t c0 c X Y WT FC) as [V|V]; congruence.
      * at_t t t0; [discriminate|]. at_t t u; [discriminate|]. intros X Y Z V. rewrite FS in Y by (apply (ON t0); auto using waiting_registered).
        rewrite FS in V by (apply (ON u); auto using waiting_registered). eapply (i_single _ I); eauto.
      * at_t t t0; [discriminate|]. intros X. rewrite FS by (eapply ON; eauto; rewrite X; reflexivity). apply (i_sleep _ I _ _ X).
      * at_t t t0; [discriminate|]. intros X. exfalso. eapply NH; eauto.
      * discriminate.
      * constructor; [|apply I]. pose proof (i_up _ I _ _ WT FC) as U. destruct (ck c); [rewrite U|rewrite U|]; reflexivity.
    + apply inv_move; rewrite ?P; trivial; try discriminate.
      * intros u d N X. exfalso. eapply NH; eauto.
      * intros u X. injection X as <-. exists c. unfold at_thread. rewrite Nat.eqb_refl. split; congruence.
    + exfalso. apply (i_flag _ I _ _ RT FC).
  - (* ESleep *) destruct (pcs st t) as [| | | |c|] eqn:P; try discriminate. injection E as <-.
    pose proof (i_holds _ I _ _ P) as H. apply inv_move; rewrite ?P; trivial; try discriminate.
    + intros d X Y. injection X as <-. destruct (i_holder _ I t H) as (d & Z & V). rewrite P in Z. injection Z as <-. auto.
    + intros u d N X. pose proof (i_holds _ I _ _ X). congruence.
  - (* ESpurious *) destruct (pcs st t) as [| | | | |c] eqn:P; try discriminate. injection E as <-.
    apply inv_move; rewrite ?P; trivial; try discriminate.
    + intros u d N. apply I.
    + intros u X. destruct (i_holder _ I u X) as (d & Y & Z). exists d. at_t t u; [congruence|auto].
Qed.

Lemma inv_run es : forall st st', inv st -> calm st es -> run st es = Some st' -> inv st'.
Proof.
  induction es as [|e r IH]; intros st st' I C E; cbn [run calm] in *; [injection E as <-; exact I|].
  destruct C as [C D]. destruct (step st e) as [st1|] eqn:S; [|discriminate]. eapply IH; [eapply inv_step; eauto|exact D|exact E].
Qed.

Lemma own_answers es st : calm start es -> run start es = Some st -> Forall own_answer (log st).
Proof. intros C E. apply i_log. exact (inv_run es start st inv_start C E). Qed.

(** A thread whose answer has arrived gets it. *)
Lemma returns es st t c : calm start es -> run start es = Some st -> waiting (pcs st t) = Some c -> ck c <> Load -> ~ In c (flight st) ->
  exists more st', length more <= 2 /\ run st more = Some st' /\ pcs st' t = Idle /\ In (Answer t (ck c) (cr c) (cr c)) (log st').
Proof.
  intros C E W K N. pose proof (inv_run es start st inv_start C E) as I.
  assert (F : flags st (cs c) = Some true).
  { pose proof (i_flag _ I t c (waiting_registered _ _ W)). destruct (flags st (cs c)) as [[|]|] eqn:F; trivial; [|contradiction].
    exfalso. apply N. eapply (i_down _ I); eauto. }
  assert (P : pcs st t = Trying c).
  { destruct (pcs st t) eqn:P; cbn in W; try discriminate; injection W as ->; trivial.
    - destruct (i_holder _ I t (i_holds _ I _ _ P)) as (d & X & Y). rewrite P in X. injection X as <-. contradiction (K (Y F)).
    - contradiction (K (i_sleep _ I _ _ P F)). }
  assert (G : forall st0, pcs st0 t = Trying c -> flags st0 = flags st -> cursor st0 = cursor st -> size st0 = size st -> holder st0 = None ->
            exists st', step st0 (ECheck t) = Some st' /\ pcs st' t = Idle /\ In (Answer t (ck c) (cr c) (cr c)) (log st')).
  { intros st0 P0 F0 C0 S0 H0. cbn [step]. rewrite P0, H0, F0, F. eexists. split; [reflexivity|]. cbn [finish pcs log]. unfold at_thread. rewrite Nat.eqb_refl.
    split; [reflexivity|]. left. pose proof (i_up _ I _ _ W F) as U. rewrite C0, S0. destruct (ck c); [rewrite U|rewrite U|]; reflexivity. }
  destruct (holder st) as [u|] eqn:H.
  - destruct (i_holder _ I u H) as (d & Q & _). assert (NE : t <> u) by (intros ->; congruence).
    set (st1 := {| pcs := at_thread (pcs st) u (Asleep d); flags := flags st; flight := flight st; cursor := cursor st; size := size st; holder := None; log := log st |}).
    assert (P1 : pcs st1 t = Trying c) by (cbn [st1 pcs]; unfold at_thread; destruct (Nat.eqb_spec t u); [contradiction|exact P]).
    destruct (G st1 P1 eq_refl eq_refl eq_refl eq_refl) as (st' & X & Y).
    exists [ESleep u; ECheck t], st'. split; [auto|]. split; [|exact Y]. cbn [run]. replace (step st (ESleep u)) with (Some st1) by (cbn [step]; rewrite Q; reflexivity).
    rewrite X. reflexivity.
  - destruct (G st P eq_refl eq_refl eq_refl H) as (st' & X & Y). exists [ECheck t], st'. split; [auto|]. split; [|exact Y]. cbn [run]. rewrite X. reflexivity.
Qed.

(** One call at a time: everything is calm. *)
Definition alone (st : state) : Prop := forall t u, pcs st t <> Idle -> pcs st u <> Idle -> t = u.

Lemma alone_step st e st' : inv st -> alone st -> one_at_a_time_at st e -> step st e = Some st' -> calm_at st e /\ alone st'.
Proof.
  intros I A O E.
  assert (UP : forall t p, (p = Idle \/ pcs st t <> Idle) -> alone (with_pcs st (at_thread (pcs st) t p))).
  { intros t p D u v. cbn [with_pcs pcs]. at_t t u; at_t t v; intros X Y; trivial.
    - destruct D as [D|D]; [contradiction|]. apply A; trivial.
    - destruct D as [D|D]; [contradiction|]. apply A; trivial.
    - apply A; trivial. }
  destruct e; cbn [step] in E; cbn [calm_at].
  - split; [exact Logic.I|]. destruct (pcs st t); try discriminate. injection E as <-. cbn in O. intros u v. cbn [with_pcs pcs]. at_t t u; at_t t v; trivial; rewrite ?O; congruence.
  - split.
    + intros c X Y. destruct (i_owner _ I (cs c)) as (u & d & Z & _); [congruence|].
      assert (t = u) by (apply A; intros Q; rewrite Q in *; cbn in *; congruence). subst u. rewrite X in Z. discriminate.
    + destruct (pcs st t) eqn:P; try discriminate. unfold set_value in E. injection E as <-.
      intros u v X Y. eapply (UP t); [right; rewrite P; discriminate|exact X|exact Y].
  - split; [exact Logic.I|]. destruct (pcs st t) eqn:P; try discriminate. injection E as <-. intros u v X Y. eapply (UP t); [right; rewrite P; discriminate|exact X|exact Y].
  - split.
    + intros c t d F W U K. exfalso. destruct (i_flight _ I c (nth_error_In _ _ F)) as (X & u & Y).
      assert (t = u) by (apply A; intros Q; rewrite Q in *; cbn in *; congruence). subst u. congruence.
    + destruct (nth_error (flight st) before); [|discriminate]. unfold reply in E.
      assert (P : pcs st' = fun t => wake (pcs st t)) by (destruct (ck c), (holder st); try discriminate; injection E as <-; reflexivity).
      intros u v. rewrite P. intros X Y. apply A; [destruct (pcs st u)|destruct (pcs st v)]; cbn in *; congruence.
  - split; [exact Logic.I|]. destruct (pcs st t) eqn:P; try discriminate. destruct (holder st); [discriminate|].
    destruct (flags st (cs c)) as [[|]|]; injection E as <-; intros u v X Y; (eapply (UP t); [|exact X|exact Y]); (left; reflexivity) || (right; rewrite P; discriminate).
  - split; [exact Logic.I|]. destruct (pcs st t) eqn:P; try discriminate. injection E as <-. intros u v X Y. eapply (UP t); [right; rewrite P; discriminate|exact X|exact Y].
  - split; [exact Logic.I|]. destruct (pcs st t) eqn:P; try discriminate. injection E as <-. intros u v X Y. eapply (UP t); [right; rewrite P; discriminate|exact X|exact Y].
Qed.

Lemma alone_calm es : forall st, inv st -> alone st -> one_at_a_time st es -> calm st es.
Proof.
  induction es as [|e r IH]; intros st I A O; cbn [calm one_at_a_time] in *; [exact Logic.I|]. destruct O as [O P].
  destruct (step st e) as [st1|] eqn:S; [|contradiction]. destruct (alone_step st e st1 I A O S) as [C A1].
  split; [exact C|]. apply IH; trivial. eapply inv_step; eauto.
Qed.

Lemma one_call_calm es : one_at_a_time start es -> calm start es.
Proof. apply alone_calm; [exact inv_start|]. intros t u X. contradiction X. reflexivity. Qed.

(** Session ids. *)
Fixpoint adds (es : list gen_event) : N := match es with [] => 0 | GAdd _ :: r => 1 + adds r | _ :: r => adds r end.

Lemma ids_turn n : forall es g, length es <= n -> in_turn es = true -> (counter g + adds es < 2 ^ 64)%N ->
  Forall (fun i => (snd (snd i) <= counter g)%N) (ids g) -> NoDup (map snd (ids g)) ->
  NoDup (map snd (ids (fold_left gen_step es g))).
Proof.
  induction n as [|n IH]; intros es g L T B F D; (destruct es as [|[t|t|] r]; [exact D|..]); cbn [length] in L; try lia; try discriminate.
  - cbn [adds] in B. cbn [fold_left].
    assert (X : forall r, length r <= n -> (fix read (r : list gen_event) : bool :=
       match r with GTick :: r' => read r' | GRead u :: r' => Nat.eqb t u && in_turn r' | _ => false end) r = true ->
       forall g', counter g' = (counter g + 1)%N -> (counter g' + adds r < 2 ^ 64)%N ->
       Forall (fun i => (snd (snd i) <= counter g)%N) (ids g') -> NoDup (map snd (ids g')) -> NoDup (map snd (ids (fold_left gen_step r g')))).
    { clear r L T B F D. induction r as [|[u|u|] r IHr]; intros L T g' C B F D; try discriminate.
      - apply andb_prop in T as [_ T]. cbn [fold_left length adds] in *. apply IH; cbn [gen_step counter ids]; trivial; try lia.
        + constructor; [cbn; lia|]. revert F. apply Forall_impl. intros i X. lia.
        + cbn [map]. constructor; [|exact D]. intros X. apply in_map_iff in X as (i & X & Y). rewrite Forall_forall in F. apply F in Y. rewrite X in Y. cbn in Y. lia.
      - cbn [fold_left length adds] in *. apply IHr; trivial; try lia. }
    apply (X r); cbn [gen_step counter ids]; trivial; try lia; rewrite N.mod_small; lia.
  - cbn [fold_left adds in_turn] in *. apply IH; trivial; lia.
Qed.

(** Nothing wakes a thread up for good: its flag is down, and no answer is on its way to anyone. *)
Definition stuck (st : state) (t : thread) (c : call) : Prop :=
  waiting (pcs st t) = Some c /\ flags st (cs c) = Some false /\ flight st = [] /\ forall u, u <> t -> pcs st u = Idle.

Lemma stuck_step st t c e st' : stuck st t c -> is_call e = false -> step st e = Some st' -> stuck st' t c.
Proof.
  intros (W & F & L & O) N E. destruct e; cbn [step is_call] in *; try discriminate.
  all: try (destruct (Nat.eq_dec t0 t) as [-> |D]; [|rewrite (O t0 D) in E; discriminate]).
  - destruct (pcs st t); discriminate.
  - destruct (pcs st t); discriminate.
  - rewrite L in E. destruct before; discriminate.
  - destruct (pcs st t); try discriminate. destruct (holder st); [discriminate|]. cbn in W. injection W as ->. rewrite F in E. injection E as <-.
    repeat split; cbn; trivial; unfold at_thread; [rewrite Nat.eqb_refl; reflexivity|]. intros u D. destruct (Nat.eqb_spec u t); [contradiction|auto].
  - destruct (pcs st t); try discriminate. cbn in W. injection W as ->. injection E as <-.
    repeat split; cbn; trivial; unfold at_thread; [rewrite Nat.eqb_refl; reflexivity|]. intros u D. destruct (Nat.eqb_spec u t); [contradiction|auto].
  - destruct (pcs st t); try discriminate. cbn in W. injection W as ->. injection E as <-.
    repeat split; cbn; trivial; unfold at_thread; [rewrite Nat.eqb_refl; reflexivity|]. intros u D. destruct (Nat.eqb_spec u t); [contradiction|auto].
Qed.

Lemma stuck_run more : forall st t c st', stuck st t c -> existsb is_call more = false -> run st more = Some st' -> waiting (pcs st' t) = Some c.
Proof.
  induction more as [|e r IH]; intros st t c st' S N E; cbn [run existsb] in *; [injection E as <-; apply S|].
  apply Bool.orb_false_iff in N as [N N']. destruct (step st e) as [st1|] eqn:X; [|discriminate].
  eapply IH; [eapply stuck_step; eauto|exact N'|exact E].
Qed.

Definition sleeping (st : state) (t : thread) (c : call) : Prop :=
  pcs st t = Asleep c /\ flight st = [] /\ forall u, u <> t -> pcs st u = Idle.
Lemma sleeping_step st t c e : sleeping st t c -> is_call e = false -> is_spurious e = false -> step st e = None.
Proof.
  intros (P & L & O) N M. destruct e; cbn [step is_call is_spurious] in *; try discriminate.
  all: try (destruct (Nat.eq_dec t0 t) as [-> |D]; [rewrite P; reflexivity|rewrite (O t0 D); reflexivity]).
  rewrite L. destruct before; reflexivity.
Qed.

(** A check of an execution of the threads below [n]. *)
Definition kind_eqb (a b : kind) : bool := match a, b with Cursor, Cursor | Size, Size | Load, Load => true | _, _ => false end.
Definition event_thread (e : event) : option thread :=
  match e with ECall t _ | ESet t _ | ESend t | ECheck t | ESleep t | ESpurious t => Some t | EReply _ => None end.
Definition calm_atb (n : nat) (st : state) (e : event) : bool :=
  match e with
  | EReply i =>
    match nth_error (flight st) i with
    | Some c => forallb (fun t => match waiting (pcs st t) with
                                  | Some d => match flags st (cs d) with Some true => kind_eqb (ck c) Load || negb (kind_eqb (ck d) (ck c)) | _ => true end
                                  | None => true end) (seq 0 n)
    | None => true
    end
  | ESet t _ => match pcs st t with Init c => match flags st (cs c) with Some true => false | _ => true end | _ => true end
  | _ => true
  end.
Fixpoint calmb (n : nat) (st : state) (es : list event) : bool :=
  match es with
  | [] => true
  | e :: r => calm_atb n st e && match event_thread e with Some t => t <? n | None => true end &&
              match step st e with Some st1 => calmb n st1 r | None => false end
  end.

Lemma idle_step n st e st' : (forall t, n <= t -> pcs st t = Idle) -> match event_thread e with Some t => t < n | None => True end ->
  step st e = Some st' -> forall t, n <= t -> pcs st' t = Idle.
Proof.
  intros I L E u H. specialize (I u H).
  assert (X : forall t p, t < n -> at_thread (pcs st) t p u = Idle) by (intros t p D; unfold at_thread; destruct (Nat.eqb_spec u t); [lia|exact I]).
  destruct e; cbn [step event_thread] in *.
  - destruct (pcs st t); try discriminate. injection E as <-. cbn. auto.
  - destruct (pcs st t); try discriminate. unfold set_value in E. injection E as <-. cbn. auto.
  - destruct (pcs st t); try discriminate. injection E as <-. cbn. auto.
  - destruct (nth_error _ _); [|discriminate]. unfold reply in E. destruct (ck c), (holder st); try discriminate; injection E as <-; cbn; rewrite I; reflexivity.
  - destruct (pcs st t); try discriminate. destruct (holder st); [discriminate|]. destruct (flags st (cs c)) as [[|]|]; injection E as <-; cbn; auto.
  - destruct (pcs st t); try discriminate. injection E as <-. cbn. auto.
  - destruct (pcs st t); try discriminate. injection E as <-. cbn. auto.
Qed.

Lemma calmb_sound n es : forall st, (forall t, n <= t -> pcs st t = Idle) -> calmb n st es = true -> calm st es.
Proof.
  induction es as [|e r IH]; intros st I C; cbn [calm calmb] in *; [exact Logic.I|].
  apply andb_prop in C as [C D]. apply andb_prop in C as [C T]. destruct (step st e) as [st1|] eqn:E; [|discriminate].
  split.
  - clear D IH E. destruct e; cbn [calm_at calm_atb] in *; trivial.
    + intros c P F. rewrite P, F in C. discriminate.
    + intros c t d N W F K. rewrite N in C. destruct (le_lt_dec n t) as [L|L]; [rewrite (I t L) in W; discriminate|].
      rewrite forallb_forall in C. specialize (C t). rewrite W, F, K in C. assert (Q : In t (seq 0 n)) by (apply in_seq; lia). specialize (C Q).
      destruct (ck c); [discriminate|discriminate|reflexivity].
  - apply IH; [|exact D]. apply (idle_step n st e st1); trivial. destruct (event_thread e); [apply Nat.ltb_lt; trivial|exact Logic.I].
Qed.

Definition idle (p : pc) : bool := match p with Idle => true | _ => false end.
Fixpoint one_at_a_timeb (n : nat) (st : state) (es : list event) : bool :=
  match es with
  | [] => true
  | e :: r => match e with ECall _ _ => forallb (fun t => idle (pcs st t)) (seq 0 n) | _ => true end &&
              match event_thread e with Some t => t <? n | None => true end &&
              match step st e with Some st1 => one_at_a_timeb n st1 r | None => false end
  end.
Lemma one_at_a_timeb_sound n es : forall st, (forall t, n <= t -> pcs st t = Idle) -> one_at_a_timeb n st es = true -> one_at_a_time st es.
Proof.
  induction es as [|e r IH]; intros st I C; cbn [one_at_a_time one_at_a_timeb] in *; [exact Logic.I|].
  apply andb_prop in C as [C D]. apply andb_prop in C as [C T]. destruct (step st e) as [st1|] eqn:E; [|discriminate].
  split.
  - clear D IH E T. destruct e; cbn [one_at_a_time_at]; trivial. intros u. destruct (le_lt_dec n u) as [L|L]; [auto|].
    rewrite forallb_forall in C. specialize (C u). assert (Q : In u (seq 0 n)) by (apply in_seq; lia). specialize (C Q). destruct (pcs st u); trivial; discriminate.
  - apply IH; [|exact D]. apply (idle_step n st e st1); trivial. destruct (event_thread e); [apply Nat.ltb_lt; trivial|exact Logic.I].
Qed.
