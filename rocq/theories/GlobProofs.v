From Verif Require Import Bytes Outcome GlobModel GlobSpec.
From Coq Require Import ZifyBool ZifyNat ZifyN.
Ltac Zify.zify_post_hook ::= Z.div_mod_to_equations.

Lemma beq_eq a b : beq a b = true <-> a = b.
Proof.
  unfold beq. rewrite N.eqb_eq. split; [|congruence].
  intros H. rewrite <- (byte_of_N_of_byte a), <- (byte_of_N_of_byte b), H. reflexivity.
Qed.
Lemma beq_refl a : beq a a = true. Proof. apply beq_eq. reflexivity. Qed.
Lemma beq_sym a b : beq a b = beq b a. Proof. unfold beq. apply N.eqb_sym. Qed.

(** bracket parser vs ranges *)
Lemma signed_inj a b : signed a = signed b -> a = b.
Proof.
  unfold signed. pose proof (N_of_byte_lt a). pose proof (N_of_byte_lt b). intros H1.
  assert (N_of_byte a = N_of_byte b).
  { destruct (N.ltb_spec (N_of_byte a) 128), (N.ltb_spec (N_of_byte b) 128); lia. }
  rewrite <- (byte_of_N_of_byte a), <- (byte_of_N_of_byte b), H2. reflexivity.
Qed.

Definition in_rangeb (s : byte) (r : byte * byte) : bool :=
  ((signed (fst r) <=? signed s) && (signed s <=? signed (snd r)))%Z.
Lemma in_rangeb_spec s r : in_rangeb s r = true <-> in_range s r.
Proof. unfold in_rangeb, in_range. lia. Qed.
Lemma in_rangeb_self s a : in_rangeb s (a, a) = beq a s.
Proof.
  apply eq_true_iff_eq. rewrite in_rangeb_spec, beq_eq. unfold in_range. cbn. split.
  - intros H. apply signed_inj. lia.
  - intros ->. lia.
Qed.

Definition upd (invert found : bool) (m : bool) : bool := if Bool.eqb found invert && m then negb invert else found.
Lemma upd_orb invert b m : upd invert (xorb invert b) m = xorb invert (b || m).
Proof. destruct invert, b, m; reflexivity. Qed.

Lemma bracket_ranges s invert : forall n p first b, (length p <= n)%nat ->
  bracket_loop s invert first (xorb invert b) p =
  match ranges first p with
  | Some (rs, t) => Some (xorb invert (b || existsb (in_rangeb s) rs), t)
  | None => None
  end.
Proof.
  induction n as [|n IH]; intros p first b H.
  - destruct p; [reflexivity|cbn in H; lia].
  - destruct p as [|a r]; [reflexivity|]. cbn [bracket_loop ranges].
    destruct (is_close a && negb first) eqn:E.
    + cbn. rewrite orb_false_r. reflexivity.
    + cbn in H. destruct r as [|x r2].
      * cbn [ranges]. reflexivity.
      * fold (upd invert (xorb invert b) (beq a s)).
        destruct r2 as [|c r3].
        -- destruct (is_dash x) eqn:D.
           ++ (* dash then end: no closing bracket *)
              cbn [ranges]. replace (is_close x) with false.
              ** reflexivity.
              ** symmetry. unfold is_dash, is_close, beq in *. apply N.eqb_neq. apply N.eqb_eq in D. rewrite D. discriminate.
           ++ rewrite upd_orb. rewrite IH by (cbn in *; lia).
              destruct (ranges false [x]) as [[rs t]|]; [|reflexivity].
              cbn [existsb]. rewrite in_rangeb_self, orb_assoc. reflexivity.
        -- destruct (is_dash x) eqn:D.
           ++ cbv zeta. fold (upd invert (xorb invert b) ((signed a <=? signed s) && (signed s <=? signed c))%Z).
              rewrite upd_orb. rewrite IH by (cbn in *; lia).
              destruct (ranges false r3) as [[rs t]|]; [|reflexivity].
              cbn [existsb]. unfold in_rangeb at 2. cbn [fst snd]. rewrite orb_assoc. reflexivity.
           ++ rewrite upd_orb. rewrite IH by (cbn in *; lia).
              destruct (ranges false (x :: c :: r3)) as [[rs t]|]; [|reflexivity].
              cbn [existsb]. rewrite in_rangeb_self, orb_assoc. reflexivity.
Qed.

Lemma bracket_ranges' s invert p :
  bracket_loop s invert true invert p =
  match ranges true p with
  | Some (rs, t) => Some (xorb invert (existsb (in_rangeb s) rs), t)
  | None => None
  end.
Proof.
  pose proof (bracket_ranges s invert (length p) p true false (le_n _)) as H.
  rewrite xorb_false_r in H. exact H.
Qed.

Lemma exists_existsb s rs : existsb (in_rangeb s) rs = true <-> Exists (in_range s) rs.
Proof.
  rewrite existsb_exists, Exists_exists. split; intros (r & Hr & H); exists r; split; auto; apply in_rangeb_spec; auto.
Qed.

Lemma ranges_shorter : forall n p first rs t, (length p <= n)%nat -> ranges first p = Some (rs, t) -> (length t < length p)%nat.
Proof.
  induction n as [|n IH]; intros p first rs t H E; (destruct p as [|a r]; [discriminate|]); [cbn in H; lia|].
  cbn [ranges] in E. destruct (is_close a && negb first).
  - injection E as <- <-. cbn. lia.
  - cbn in H. destruct r as [|b [|c r3]].
    + cbn [ranges] in E. discriminate.
    + destruct (ranges false [b]) as [[l t']|] eqn:F; [|discriminate]. injection E as <- <-.
      apply IH in F; [|lia]. cbn in *. lia.
    + destruct (is_dash b).
      * destruct (ranges false r3) as [[l t']|] eqn:F; [|discriminate]. injection E as <- <-.
        apply IH in F; [|cbn in *; lia]. cbn in *. lia.
      * destruct (ranges false (b :: c :: r3)) as [[l t']|] eqn:F; [|discriminate]. injection E as <- <-.
        apply IH in F; [|lia]. cbn in *. lia.
Qed.

(** every pattern can be read, and in one way *)
Lemma reads_total : forall n p, (length p <= n)%nat -> exists is, reads p is.
Proof.
  induction n as [|n IH]; intros p H; (destruct p as [|a r]; [exists []; constructor|]); [cbn in H; lia|].
  cbn in H. destruct (IH r ltac:(lia)) as [is Hr].
  destruct (is_star a) eqn:E1; [apply beq_eq in E1; subst; eexists; econstructor; exact Hr|].
  destruct (is_quest a) eqn:E2; [apply beq_eq in E2; subst; eexists; apply R_any; exact Hr|].
  destruct (is_open a) eqn:E3.
  - apply beq_eq in E3. subst.
    destruct r as [|b r'].
    + exists [Bad]. apply R_set_bad; [discriminate|reflexivity].
    + destruct (is_bang b) eqn:E4.
      * apply beq_eq in E4. subst. destruct (ranges true r') as [[rs t]|] eqn:F.
        -- pose proof (ranges_shorter _ _ _ _ _ (le_n _) F). destruct (IH t) as [is' H']; [cbn in H; lia|].
           eexists. eapply R_inv; eassumption.
        -- eexists. apply R_inv_bad. exact F.
      * assert (hd_error (b :: r') <> Some (ch 33)).
        { cbn. intros X. injection X as ->. unfold is_bang in E4. rewrite beq_refl in E4. discriminate. }
        destruct (ranges true (b :: r')) as [[rs t]|] eqn:F.
        -- pose proof (ranges_shorter _ _ _ _ _ (le_n _) F). destruct (IH t) as [is' H']; [lia|].
           eexists. eapply R_set; eassumption.
        -- eexists. apply R_set_bad; assumption.
  - destruct (is_bslash a) eqn:E5.
    + apply beq_eq in E5. subst. destruct r as [|b r'].
      * exists [Bad]. constructor.
      * destruct (IH r') as [is' H']; [cbn in H; lia|]. eexists. apply R_esc. exact H'.
    + eexists. apply R_lit; eassumption.
Qed.

Lemma skip_stars_suffix p is : reads p is ->
  exists k is', is = repeat Star k ++ is' /\ reads (skip_stars p) is' /\
    (skip_stars p = [] <-> is' = []) /\ hd_error is' <> Some Star /\ (length (skip_stars p) <= length p)%nat.
Proof.
  intros H. induction H; cbn [skip_stars].
  - exists O, []. repeat split; try constructor; discriminate.
  - change (is_star (ch 42)) with true. cbv iota. destruct IHreads as (k & is' & -> & A & B & C & D).
    exists (S k), is'. repeat split; auto; try apply B. cbn. lia.
  - exists O. eexists. split; [reflexivity|]. repeat split; try discriminate; try (apply R_any; assumption). cbn; lia.
  - exists O. eexists. split; [reflexivity|]. repeat split; try discriminate; try (apply R_esc; assumption). cbn; lia.
  - exists O. eexists. split; [reflexivity|]. repeat split; try discriminate; try constructor.
  - exists O. eexists. split; [reflexivity|]. repeat split; try discriminate; try (eapply R_set; eassumption). cbn; lia.
  - exists O. eexists. split; [reflexivity|]. repeat split; try discriminate; try (eapply R_inv; eassumption). cbn; lia.
  - exists O. eexists. split; [reflexivity|]. repeat split; try discriminate; try (eapply R_set_bad; eassumption). cbn; lia.
  - exists O. eexists. split; [reflexivity|]. repeat split; try discriminate; try (eapply R_inv_bad; eassumption). cbn; lia.
  - rewrite H. exists O. eexists. split; [reflexivity|]. repeat split; try discriminate; try (apply R_lit; assumption). cbn; lia.
Qed.

(** matching facts *)
Lemma star_any is s : matches (Star :: is) s <-> exists u t, s = u ++ t /\ matches is t.
Proof.
  split.
  - intros H. inversion H as [|is0 u s0 M E1 E2|i is0 c s0 A M E1 E2]; subst; [eauto|]. destruct A.
  - intros (u & t & -> & H). constructor. exact H.
Qed.

Lemma stars_match k is s : matches (repeat Star k ++ is) s -> exists u t, s = u ++ t /\ matches is t.
Proof.
  revert s. induction k as [|k IH]; intros s H; cbn in H; [exists [], s; auto|].
  apply star_any in H as (u & t & -> & H). apply IH in H as (u' & t' & -> & H).
  exists (u ++ u'), t'. rewrite app_assoc. auto.
Qed.

Lemma stars_match_conv k is u t : (0 < k)%nat -> matches is t -> matches (repeat Star k ++ is) (u ++ t).
Proof.
  intros Hk H. destruct k as [|k]; [lia|]. clear Hk. revert u. induction k as [|k IH]; intros u.
  - cbn. constructor. exact H.
  - change (repeat Star (S (S k)) ++ is) with (Star :: (repeat Star (S k) ++ is)).
    change (u ++ t) with (u ++ ([] ++ t)). constructor. apply IH.
Qed.

Lemma nostar_nonempty is : hd_error is <> Some Star -> is <> [] -> ~ matches is [].
Proof.
  intros H N M. destruct is as [|i is]; [contradiction|].
  inversion M as [|is0 u s0 M0 E1 E2|]; subst. cbn in H. congruence.
Qed.

Lemma match_nil_iff is : matches is [] <-> exists k, is = repeat Star k.
Proof.
  split.
  - induction is as [|i is IH]; intros H; [exists O; reflexivity|].
    inversion H as [|is0 u s0 M0 E1 E2|]; subst. apply app_eq_nil in E2 as [-> ->].
    destruct (IH M0) as [k ->]. exists (S k). reflexivity.
  - intros [k ->]. induction k as [|k IH]; cbn; [constructor|].
    change (@nil byte) with (@nil byte ++ []). constructor. exact IH.
Qed.

Lemma try_suffixes_spec k s :
  (forall u c t, s = u ++ c :: t -> exists b, k (c :: t) = Ok b) ->
  exists b, try_suffixes k s = Ok b /\
            (b = true <-> exists u c t, s = u ++ c :: t /\ k (c :: t) = Ok true).
Proof.
  induction s as [|c s IH]; intros H; cbn [try_suffixes].
  - exists false. split; [reflexivity|]. split; [discriminate|]. intros (u & c & t & E & _). destruct u; discriminate.
  - destruct (H [] c s eq_refl) as [b Hb]. rewrite Hb. cbn [rbind]. destruct b.
    + exists true. split; [reflexivity|]. split; [|auto]. intros _. exists [], c, s. auto.
    + destruct IH as (b & Eb & Hiff).
      { intros u c' t E. apply (H (c :: u) c' t). rewrite E. reflexivity. }
      exists b. split; [exact Eb|]. rewrite Hiff. split.
      * intros (u & c' & t & -> & Hk). exists (c :: u), c', t. auto.
      * intros (u & c' & t & E & Hk). destruct u as [|x u].
        -- injection E as <- <-. rewrite Hb in Hk. discriminate.
        -- injection E as <- ->. exists u, c', t. auto.
Qed.

Lemma glob_spec : forall n s p is, (length p <= n)%nat -> reads p is ->
  exists b, glob_f (S n) true s p = Ok b /\ (b = true <-> matches is s).
Proof.
  induction n as [|n IH]; intros s p is Hlen HR.
  - destruct p as [|x p]; [|cbn in Hlen; lia]. inversion HR; subst. destruct s as [|c s]; cbn.
    + exists true. split; [reflexivity|]. split; auto. intros _. constructor.
    + exists false. split; [reflexivity|]. split; [discriminate|]. intros H. inversion H.
  - destruct s as [|c s'].
    { cbn [glob_f]. eexists. split; [reflexivity|].
      destruct (skip_stars_suffix _ _ HR) as (k & is' & -> & HR' & Hnil & Hhd & _).
      destruct (skip_stars p) as [|y q] eqn:E.
      - assert (is' = []) as -> by (apply Hnil; reflexivity). rewrite app_nil_r.
        split; auto. intros _. apply match_nil_iff. exists k. reflexivity.
      - split; [discriminate|]. intros M. apply match_nil_iff in M as [k' M].
        assert (is' <> []). { intros X. apply Hnil in X. discriminate. }
        exfalso. clear - M H Hhd. revert k' M. induction k as [|k IHk]; intros k' M; cbn in M.
        + destruct k'; cbn in M; subst; [apply H; reflexivity|]. apply Hhd. reflexivity.
        + destruct k'; [discriminate|]. injection M as M. apply (IHk _ M). }
    destruct p as [|x p'].
    { inversion HR; subst. cbn. exists false. split; [reflexivity|]. split; [discriminate|]. intros H. inversion H. }
    cbn in Hlen. remember (S n) as m eqn:Em. cbn [glob_f]. subst m.
    assert (KEY : forall i is0 rest, reads rest is0 -> (length rest <= n)%nat ->
              (accepts i c -> exists b, glob_f (S n) true s' rest = Ok b /\ (b = true <-> matches (i :: is0) (c :: s'))) \/ True) by auto.
    clear KEY.
    assert (ONE : forall i is0 rest, i <> Star -> reads rest is0 -> (length rest <= n)%nat -> accepts i c ->
              exists b, glob_f (S n) true s' rest = Ok b /\ (b = true <-> matches (i :: is0) (c :: s'))).
    { intros i is0 rest Hi HRr Hl Ha. destruct (IH s' rest is0 Hl HRr) as (b & Eb & Hb). exists b. split; [exact Eb|].
      rewrite Hb. split; intros M; [constructor; auto|]. inversion M; subst; [contradiction|assumption]. }
    assert (NO : forall i is0, i <> Star -> ~ accepts i c ->
              exists b, Ok false = Ok b /\ (b = true <-> matches (i :: is0) (c :: s'))).
    { intros i is0 Hi Ha. exists false. split; [reflexivity|]. split; [discriminate|]. intros M. inversion M; subst; contradiction. }
    inversion HR as [| p0 is0 HR0 | p0 is0 HR0 | y p0 is0 HR0 | | p0 rs t is0 Hhd Hrs HR0 | p0 rs t is0 Hrs HR0
                     | p0 Hhd Hrs | p0 Hrs | y p0 is0 N1 N2 N3 N4 HR0]; subst.
    + (* star *)
      change (is_star (ch 42)) with true. cbv iota.
      destruct (skip_stars_suffix _ _ HR0) as (k & is' & -> & HR' & Hnil & Hhd & Hlen').
      destruct (skip_stars p') as [|y q] eqn:E.
      * exists true. split; [reflexivity|]. split; auto. intros _.
        assert (is' = []) as -> by (apply Hnil; reflexivity).
        change (Star :: repeat Star k ++ []) with (repeat Star (S k) ++ []).
        rewrite <- (app_nil_r (c :: s')). apply stars_match_conv; [lia|constructor].
      * assert (is' <> []) by (intros X; apply Hnil in X; discriminate).
        destruct (try_suffixes_spec (fun t => glob_f (S n) true t (y :: q)) (c :: s')) as (b & Eb & Hb).
        { intros u c' t _. destruct (IH (c' :: t) (y :: q) is') as (b & Eb & _); [lia|exact HR'|]. exists b. exact Eb. }
        exists b. split; [exact Eb|]. rewrite Hb. split.
        -- intros (u & c' & t & Es & Hg). destruct (IH (c' :: t) (y :: q) is') as (b' & Eb' & Hb'); [lia|exact HR'|].
           rewrite Hg in Eb'. injection Eb' as <-. rewrite Es.
           change (Star :: repeat Star k ++ is') with (repeat Star (S k) ++ is').
           apply stars_match_conv; [lia|]. apply Hb'. reflexivity.
        -- intros M. change (Star :: repeat Star k ++ is') with (repeat Star (S k) ++ is') in M.
           apply stars_match in M as (u & t & Es & M). destruct t as [|c' t].
           { exfalso. revert M. apply nostar_nonempty; assumption. }
           exists u, c', t. split; [exact Es|].
           destruct (IH (c' :: t) (y :: q) is') as (b' & Eb' & Hb'); [lia|exact HR'|].
           rewrite Eb'. f_equal. apply Hb'. exact M.
    + (* any *)
      change (is_star (ch 63)) with false. change (is_quest (ch 63)) with true. cbv iota. cbn [andb].
      apply ONE; auto; [discriminate|lia|exact I].
    + (* escape *)
      change (is_star (ch 92)) with false. change (is_quest (ch 92)) with false.
      change (is_open (ch 92)) with false. change (is_bslash (ch 92)) with true. cbv iota. cbn [andb orb].
      cbn in Hlen. destruct (beq c y) eqn:E.
      * apply beq_eq in E. subst. apply ONE; auto; [discriminate|lia|reflexivity].
      * apply NO; [discriminate|]. cbn. intros ->. rewrite beq_refl in E. discriminate.
    + change (is_star (ch 92)) with false. change (is_quest (ch 92)) with false.
      change (is_open (ch 92)) with false. change (is_bslash (ch 92)) with true. cbv iota. cbn [andb orb].
      apply NO; [discriminate|auto].
    + (* set *)
      change (is_star (ch 91)) with false. change (is_quest (ch 91)) with false.
      change (is_open (ch 91)) with true. cbv iota. cbn [andb orb].
      unfold parse_bracket. destruct p' as [|b p']; [discriminate|].
      assert (Hb : is_bang b = false).
      { apply not_true_iff_false. intros X. apply beq_eq in X. subst. apply Hhd. reflexivity. }
      rewrite Hb. cbv iota. rewrite bracket_ranges', Hrs.
      pose proof (ranges_shorter _ _ _ _ _ (le_n _) Hrs) as Hsh.
      destruct (xorb false (existsb (in_rangeb c) rs)) eqn:Ex.
      * apply ONE; auto; [discriminate|lia|]. cbn. apply exists_existsb. destruct (existsb _ _); auto.
      * apply NO; [discriminate|]. cbn. intros X. apply exists_existsb in X. rewrite X in Ex. discriminate.
    + change (is_star (ch 91)) with false. change (is_quest (ch 91)) with false.
      change (is_open (ch 91)) with true. cbv iota. cbn [andb orb].
      unfold parse_bracket. change (is_bang (ch 33)) with true. cbv iota.
      rewrite bracket_ranges', Hrs.
      pose proof (ranges_shorter _ _ _ _ _ (le_n _) Hrs) as Hsh. cbn in Hlen.
      destruct (xorb true (existsb (in_rangeb c) rs)) eqn:Ex.
      * apply ONE; auto; [discriminate|lia|]. cbn. intros X. apply exists_existsb in X. rewrite X in Ex. discriminate.
      * apply NO; [discriminate|]. cbn. intros X. apply X. apply exists_existsb. destruct (existsb _ _); auto.
    + change (is_star (ch 91)) with false. change (is_quest (ch 91)) with false.
      change (is_open (ch 91)) with true. cbv iota. cbn [andb orb].
      unfold parse_bracket. destruct p' as [|b p'].
      * apply NO; [discriminate|auto].
      * assert (Hb : is_bang b = false).
        { apply not_true_iff_false. intros X. apply beq_eq in X. subst. apply Hhd. reflexivity. }
        rewrite Hb. cbv iota. rewrite bracket_ranges', Hrs. apply NO; [discriminate|auto].
    + change (is_star (ch 91)) with false. change (is_quest (ch 91)) with false.
      change (is_open (ch 91)) with true. cbv iota. cbn [andb orb].
      unfold parse_bracket. change (is_bang (ch 33)) with true. cbv iota.
      rewrite bracket_ranges', Hrs. apply NO; [discriminate|auto].
    + rewrite N1, N2, N3, N4. cbn [andb orb]. destruct (beq c x) eqn:E.
      * apply beq_eq in E. subst. apply ONE; auto; [discriminate|lia|reflexivity].
      * apply NO; [discriminate|]. cbn. intros ->. rewrite beq_refl in E. discriminate.
Qed.

Lemma glob_correct s p : exists is b, reads p is /\ glob s p = Ok b /\ (b = true <-> matches is s).
Proof.
  destruct (reads_total (length p) p (le_n _)) as [is HR].
  destruct (glob_spec (length p) s p is (le_n _) HR) as (b & E & H). exists is, b. auto.
Qed.

Lemma glob_correct_any s p is : reads p is -> exists b, glob s p = Ok b /\ (b = true <-> matches is s).
Proof. intros HR. apply glob_spec; auto. Qed.
