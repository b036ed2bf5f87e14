(** Proofs about the translation of conditions. *)
From Verif Require Import Bytes Outcome ByteOrd.
From Verif Require TapeModel.
From Verif Require Import IndexModel IndexSpec QueryModel QuerySpec QueryProofs SqlModel SqlSpec.
Local Open Scope Z_scope.

Lemma operator_type o c : operator_of o = Some c -> compare_type o = Ok c.
Proof.
  unfold operator_of, compare_type.
  destruct (beqb o (str "=")); [intros [= <-]; rewrite orb_true_r; reflexivity|].
  destruct (beqb o (str "==")); [intros [= <-]; reflexivity|]. cbn [orb].
  destruct (beqb o (str "<>")); [intros [= <-]; rewrite orb_true_r; reflexivity|].
  destruct (beqb o (str "!=")); [intros [= <-]; reflexivity|]. cbn [orb].
  repeat match goal with |- (if ?b then _ else _) = _ -> _ => destruct b; [intros [= <-]; reflexivity|] end.
  discriminate.
Qed.

(** ** Parameters *)
Definition keeps (ps qs : list (N * dval)) : Prop := forall i v, lookup N.eqb i ps = Some v -> lookup N.eqb i qs = Some v.
Lemma keeps_refl ps : keeps ps ps.
Proof. intros i v H. exact H. Qed.
Lemma keeps_trans ps qs rs : keeps ps qs -> keeps qs rs -> keeps ps rs.
Proof. intros A B i v H. apply B, A, H. Qed.
(** [k] parameters were added so far. *)
Definition added (st : pstore) (k : N) : Prop :=
  (k <= 65536)%N /\ counter st = (k mod 65536)%N /\ forall i, lookup N.eqb i (vals st) <> None <-> (i < k)%N.

Lemma lookup_app (ps : list (N * dval)) i id v :
  lookup N.eqb i (ps ++ [(id, v)]) =
  match lookup N.eqb i ps with Some x => Some x | None => if N.eqb i id then Some v else None end.
Proof.
  induction ps as [|[j x] ps IH]; cbn; [reflexivity|]. destruct (N.eqb i j); [reflexivity|exact IH].
Qed.
Lemma emplace_keeps (ps : list (N * dval)) id v : keeps ps (emplace N.eqb id v ps).
Proof.
  unfold emplace. destruct (lookup N.eqb id ps); [apply keeps_refl|]. intros i x H. rewrite lookup_app, H. reflexivity.
Qed.

Lemma add_ok st k v : added st k -> (k < 65536)%N ->
  exists st', add_parameter v st = (k, st') /\ added st' (k + 1) /\ keeps (vals st) (vals st') /\
    lookup N.eqb k (vals st') = Some v.
Proof.
  intros (_ & C & L) K. unfold add_parameter. rewrite C, (N.mod_small k 65536) by exact K.
  eexists. split; [reflexivity|].
  assert (F : lookup N.eqb k (vals st) = None).
  { destruct (lookup N.eqb k (vals st)) eqn:E; [|reflexivity].
    exfalso. apply (N.lt_irrefl k). apply L. rewrite E. discriminate. }
  assert (E : emplace N.eqb k v (vals st) = vals st ++ [(k, v)]) by (unfold emplace; rewrite F; reflexivity).
  split; [|split].
  - split; [lia|]. split; [reflexivity|]. cbn [vals]. rewrite E. intros i. rewrite lookup_app.
    destruct (lookup N.eqb i (vals st)) eqn:Q.
    + split; [intros _|discriminate]. assert (i < k)%N by (apply L; rewrite Q; discriminate). lia.
    + destruct (N.eqb_spec i k) as [->|D].
      * split; [intros _; lia|discriminate].
      * split; [congruence|]. intros B. assert (i < k)%N by lia. apply L in H. congruence.
  - apply emplace_keeps.
  - cbn [vals]. rewrite E, lookup_app, F, N.eqb_refl. reflexivity.
Qed.

(** ** Predicates *)
Lemma sat_and es fs ps l r : sat (And (es ++ fs)) ps l r <-> sat (And es) ps l r /\ sat (And fs) ps l r.
Proof. induction es as [|e es IH]; cbn in *; [tauto|]. rewrite IH. tauto. Qed.
Lemma sat_or es fs ps l r : sat (Or (es ++ fs)) ps l r <-> sat (Or es) ps l r \/ sat (Or fs) ps l r.
Proof. induction es as [|e es IH]; cbn in *; [tauto|]. rewrite IH. tauto. Qed.
Lemma sat_and_part e ps l r : sat (And (and_part e)) ps l r <-> sat e ps l r.
Proof. destruct e; cbn; tauto. Qed.
Lemma sat_or_part e ps l r : sat (Or (or_part e)) ps l r <-> sat e ps l r.
Proof. destruct e; cbn; tauto. Qed.
Lemma regular_and_part e ps l r : regular (And (and_part e)) ps l r = regular e ps l r.
Proof. destruct e; cbn; try apply andb_true_r; reflexivity. Qed.
Lemma regular_or_part e ps l r : regular (Or (or_part e)) ps l r = regular e ps l r.
Proof. destruct e; cbn; try apply andb_true_r; reflexivity. Qed.

Lemma order_eq_sym x y : order x y = Some Eq <-> order y x = Some Eq.
Proof.
  destruct x, y; cbn; try tauto; split; intros [= H]; f_equal.
  - apply Z.compare_eq in H. rewrite H. apply Z.compare_refl.
  - apply Z.compare_eq in H. rewrite H. apply Z.compare_refl.
  - apply Z.compare_eq in H. rewrite H. apply Z.compare_refl.
  - apply Z.compare_eq in H. rewrite H. apply Z.compare_refl.
  - apply bcmp_eq in H. rewrite H. apply bcmp_refl.
  - apply bcmp_eq in H. rewrite H. apply bcmp_refl.
Qed.

(** The value the code takes for a constant. *)
Lemma constant_value n : constant n = true ->
  exists v, node_value n = Ok v /\ (forall d, value_of n d = Some v) /\ constants n = 1%N /\ column n = false.
Proof.
  destruct n as [| [s|z|] | [s|z|] t | | | | | | | | ]; cbn; try discriminate; intros C.
  - eexists. repeat split; reflexivity.
  - eexists. repeat split; reflexivity.
  - apply andb_true_iff in C. destruct C as [T S]. rewrite T. apply orb_true_iff in S. destruct S as [S|S].
    + apply beqb_eq in S. subst s. eexists. repeat split; reflexivity.
    + apply beqb_eq in S. subst s. eexists. repeat split; reflexivity.
Qed.

Record done (n : node) (st : pstore) (k : N) (e : expr) (st' : pstore) : Prop := {
  d_run : transform n st = Ok (e, st');
  d_added : added st' (k + constants n);
  d_keeps : keeps (vals st) (vals st');
  d_not : negation n = false -> not_part e = [e];
  d_sat : forall ps, keeps (vals st') ps -> forall d, sat e ps d None <-> holds n d;
  d_regular : forall ps, keeps (vals st') ps -> forall d, matched n d = true -> regular e ps d None = true
}.

Lemma op_columns o l r : column l = true -> column r = true ->
  exists k k', transform (Op o l r) = (fun st => do c <- compare_type o; Ok (Keys c k k', st)) /\
    (forall d, value_of l d = field d k) /\ (forall d, value_of r d = field d k') /\ constants l = 0%N /\ constants r = 0%N.
Proof.
  destruct l; try discriminate. destruct r; try discriminate. intros _ _.
  eexists _, _. repeat split; reflexivity.
Qed.
Lemma op_right o l r : column l = true -> constant r = true ->
  exists k, (forall st, transform (Op o l r) st = do c <- compare_type o; do v <- node_value r;
      let (id, s1) := add_parameter v st in Ok (Param c k id, s1)) /\
    (forall d, value_of l d = field d k) /\ constants l = 0%N.
Proof.
  destruct l; try discriminate. intros _ C. eexists. split; [|split; reflexivity].
  destruct r as [| [ | | ] | | | | | | | | | ]; try discriminate C; reflexivity.
Qed.
Lemma op_left o l r : constant l = true -> column r = true ->
  exists k, (forall st, transform (Op o l r) st = do c <- compare_type o; do v <- node_value l;
      let (id, s1) := add_parameter v st in Ok (Param c k id, s1)) /\
    (forall d, value_of r d = field d k) /\ constants r = 0%N.
Proof.
  destruct r; try discriminate. intros C _. eexists. split; [|split; reflexivity].
  destruct l as [| [ | | ] | | | | | | | | | ]; try discriminate C; reflexivity.
Qed.

Lemma transform_ok n : forall st k, plain n = true -> added st k -> (k + constants n <= 65536)%N ->
  exists e st', done n st k e st'.
Proof.
  induction n as [p k0|l|l t|l IHl r IHr|l IHl r IHr|r IH|o l _ r _|o r _|l _ r _|a IH| ]; intros st k P A B;
    try discriminate P.
  - cbn in P, B. apply andb_true_iff in P. destruct P as [P1 P2].
    destruct (IHl st k P1 A) as (el & s1 & [R1 A1 K1 N1 S1 G1]); [lia|].
    destruct (IHr s1 _ P2 A1) as (er & s2 & [R2 A2 K2 N2 S2 G2]); [lia|].
    exists (And (and_part el ++ and_part er)), s2. constructor.
    + cbn [transform]. rewrite R1. cbn [rbind]. rewrite R2. reflexivity.
    + cbn [constants]. rewrite N.add_assoc. exact A2.
    + eapply keeps_trans; eassumption.
    + reflexivity.
    + intros ps K d. rewrite sat_and, !sat_and_part, S2 by exact K. rewrite S1 by (eapply keeps_trans; eassumption).
      reflexivity.
    + intros ps K d M. cbn in M. apply andb_true_iff in M. destruct M as [M1 M2].
      change (regular (And (and_part el ++ and_part er)) ps d None)
        with (forallb (fun e => regular e ps d None) (and_part el ++ and_part er)).
      rewrite forallb_app. apply andb_true_iff. split.
      * change (regular (And (and_part el)) ps d None = true). rewrite regular_and_part. apply G1; [|exact M1].
        eapply keeps_trans; eassumption.
      * change (regular (And (and_part er)) ps d None = true). rewrite regular_and_part. apply G2; assumption.
  - cbn in P, B. apply andb_true_iff in P. destruct P as [P1 P2].
    destruct (IHl st k P1 A) as (el & s1 & [R1 A1 K1 N1 S1 G1]); [lia|].
    destruct (IHr s1 _ P2 A1) as (er & s2 & [R2 A2 K2 N2 S2 G2]); [lia|].
    exists (Or (or_part el ++ or_part er)), s2. constructor.
    + cbn [transform]. rewrite R1. cbn [rbind]. rewrite R2. reflexivity.
    + cbn [constants]. rewrite N.add_assoc. exact A2.
    + eapply keeps_trans; eassumption.
    + reflexivity.
    + intros ps K d. rewrite sat_or, !sat_or_part, S2 by exact K. rewrite S1 by (eapply keeps_trans; eassumption).
      reflexivity.
    + intros ps K d M. cbn in M. apply andb_true_iff in M. destruct M as [M1 M2].
      change (regular (Or (or_part el ++ or_part er)) ps d None)
        with (forallb (fun e => regular e ps d None) (or_part el ++ or_part er)).
      rewrite forallb_app. apply andb_true_iff. split.
      * change (regular (Or (or_part el)) ps d None = true). rewrite regular_or_part. apply G1; [|exact M1].
        eapply keeps_trans; eassumption.
      * change (regular (Or (or_part er)) ps d None = true). rewrite regular_or_part. apply G2; assumption.
  - cbn in P, B. apply andb_true_iff in P. destruct P as [P1 P2]. apply negb_true_iff in P2.
    destruct (IH st k P1 A B) as (er & s1 & [R1 A1 K1 N1 S1 G1]).
    exists (Not (not_part er)), s1. constructor.
    + cbn [transform]. rewrite R1. reflexivity.
    + exact A1.
    + exact K1.
    + discriminate.
    + intros ps K d. rewrite (N1 P2). cbn [sat holds]. rewrite (S1 ps K d). reflexivity.
    + intros ps K d M. rewrite (N1 P2). cbn [regular]. apply G1; assumption.
  - cbn [plain] in P. destruct (operator_of o) as [c|] eqn:O; [|discriminate].
    pose proof (operator_type o c O) as T. cbn [constants] in B.
    apply orb_true_iff in P. destruct P as [P|P].
    + apply andb_true_iff in P. destruct P as [CL P]. apply orb_true_iff in P. destruct P as [CR|CR].
      * destruct (op_columns o l r CL CR) as (x & y & R & VL & VR & Z1 & Z2).
        exists (Keys c x y), st. constructor.
        -- rewrite R, T. reflexivity.
        -- cbn [constants]. rewrite Z1, Z2, !N.add_0_r. exact A.
        -- apply keeps_refl.
        -- reflexivity.
        -- intros ps K d. cbn [sat holds]. split.
           ++ intros (a & b & E1 & E2 & S). exists c, a, b. rewrite VL, VR. auto.
           ++ intros (c' & a & b & E0 & E1 & E2 & S). rewrite VL in E1. rewrite VR in E2. exists a, b.
              rewrite O in E0. injection E0 as ->. auto.
        -- intros ps K d M. cbn [matched] in M. rewrite CL, VL, VR in M. cbn [regular].
           destruct (field d x), (field d y); exact M.
      * destruct (constant_value r CR) as (v & NV & VR & C1 & _).
        destruct (op_right o l r CL CR) as (x & R & VL & Z1). rewrite Z1, C1 in B.
        destruct (add_ok st k v A) as (s1 & E & A1 & K1 & L1); [lia|].
        exists (Param c x k), s1. constructor.
        -- rewrite R, T. cbn [rbind]. rewrite NV. cbn [rbind]. rewrite E. reflexivity.
        -- cbn [constants]. rewrite Z1, C1. exact A1.
        -- exact K1.
        -- reflexivity.
        -- intros ps K d. cbn [sat holds]. split.
           ++ intros (a & b & E1 & E2 & S). exists c, a, b. rewrite VL, VR.
              rewrite (K _ _ L1) in E2. injection E2 as <-. auto.
           ++ intros (c' & a & b & E0 & E1 & E2 & S). rewrite VL in E1. rewrite VR in E2. injection E2 as <-.
              exists a, v. rewrite O in E0. injection E0 as <-. split; [exact E1|]. split; [apply K; exact L1|exact S].
        -- intros ps K d M. cbn [matched] in M. rewrite CL, VL, VR in M. cbn [regular]. rewrite (K _ _ L1).
           destruct (field d x); exact M.
    + apply andb_true_iff in P. destruct P as [P SY]. apply andb_true_iff in P. destruct P as [CL CR].
      destruct (constant_value l CL) as (v & NV & VL & C1 & CC).
      destruct (op_left o l r CL CR) as (x & R & VR & Z1). rewrite Z1, C1 in B.
      destruct (add_ok st k v A) as (s1 & E & A1 & K1 & L1); [lia|].
      assert (SYM : forall a b, stands c a b <-> stands c b a).
      { intros a b. destruct c; try discriminate SY; cbn [stands]; rewrite (order_eq_sym a b); reflexivity. }
      exists (Param c x k), s1. constructor.
      * rewrite R, T. cbn [rbind]. rewrite NV. cbn [rbind]. rewrite E. reflexivity.
      * cbn [constants]. rewrite Z1, C1, N.add_0_r. exact A1.
      * exact K1.
      * reflexivity.
      * intros ps K d. cbn [sat holds]. split.
        -- intros (a & b & E1 & E2 & S). exists c, b, a. rewrite VL, VR.
           rewrite (K _ _ L1) in E2. injection E2 as <-. rewrite SYM. auto.
        -- intros (c' & b & a & E0 & E1 & E2 & S). rewrite VR in E2. rewrite VL in E1. injection E1 as <-.
           exists a, v. rewrite O in E0. injection E0 as <-. rewrite SYM. split; [exact E2|]. split; [apply K; exact L1|exact S].
      * intros ps K d M. cbn [matched] in M. rewrite CC, VL, VR in M. cbn [regular]. rewrite (K _ _ L1).
        destruct (field d x); exact M.
  - cbn in P, B. destruct (IH st k P A B) as (e & s1 & [R1 A1 K1 N1 S1 G1]).
    exists e, s1. constructor; try assumption.
    cbn [transform]. destruct a; try discriminate P; exact R1.
Qed.

Lemma added_none : added no_params 0.
Proof. split; [lia|]. split; [reflexivity|]. intros i. cbn. split; [congruence|lia]. Qed.

Theorem where_ok n f limit ds : plain n = true -> (constants n <= 65536)%N ->
  (forall d, In d ds -> matched n d = true /\ (f d = true <-> holds n d)) ->
  exists o, where_scan n limit ds = Ok o /\ answer o = limited limit (filter f ds).
Proof.
  intros P B H. destruct (transform_ok n no_params 0 P added_none) as (e & st & [R A K N S G]); [lia|].
  unfold where_scan. rewrite R. cbn [rbind]. apply full_scan_filter. intros d D. destruct (H d D) as [M F].
  pose proof (G _ (keeps_refl _) d M) as RG. destruct (eval_sat e (vals st) d None RG) as (b & E & Q).
  rewrite E. f_equal. pose proof (S _ (keeps_refl _) d) as SD.
  destruct b, (f d); try reflexivity.
  - assert (false = true) by (apply F, SD, Q; reflexivity). discriminate.
  - assert (false = true) by (apply Q, SD, F; reflexivity). discriminate.
Qed.

(** ** What the code does to a double negation *)
Theorem double_negation n st : transform (Neg (Neg n)) st = transform (Neg n) st.
Proof.
  cbn [transform]. destruct (transform n st) as [[e s]|x]; cbn [rbind]; reflexivity.
Qed.
Theorem double_negation_paren n st : transform (Neg (Paren (Neg n))) st = transform (Neg n) st.
Proof.
  cbn [transform]. destruct (transform n st) as [[e s]|x]; cbn [rbind]; reflexivity.
Qed.

(** ** More constants than parameter ids *)
(** [a = 0 OR ... OR a = 0], [n + 1] of them *)
Fixpoint zeros (n : nat) : node :=
  match n with
  | O => Op (str "=") (Col [] (str "a")) (Lit (LInt 0))
  | S m => Disj (zeros m) (Op (str "=") (Col [] (str "a")) (Lit (LInt 0)))
  end.
Lemma zeros_constants n : constants (zeros n) = (N.of_nat n + 1)%N.
Proof. induction n as [|n IH]; [reflexivity|]. cbn [zeros constants]. rewrite IH. lia. Qed.
Lemma zeros_plain n : plain (zeros n) = true.
Proof. induction n as [|n IH]; [reflexivity|]. cbn [zeros plain]. rewrite IH. reflexivity. Qed.
Lemma zeros_holds n d : holds (zeros n) d <-> exists x, field d (str "a") = Some x /\ order x (DInt TapeModel.I64 0) = Some Eq.
Proof.
  assert (H1 : holds (Op (str "=") (Col [] (str "a")) (Lit (LInt 0))) d <->
               exists x, field d (str "a") = Some x /\ order x (DInt TapeModel.I64 0) = Some Eq).
  { cbn [holds value_of]. split.
    - intros (c & x & y & [= <-] & F & [= <-] & S). exists x. auto.
    - intros (x & F & S). exists CEq, x, (DInt TapeModel.I64 0). auto. }
  induction n as [|n IH]; [exact H1|]. cbn [zeros holds]. rewrite IH. cbn [holds] in H1. rewrite H1. tauto.
Qed.
(** the values of the parameters of [zeros] *)
Lemma zeros_values n : forall e st, transform (zeros n) no_params = Ok (e, st) ->
  lookup N.eqb 0%N (vals st) = Some (DInt TapeModel.I64 0).
Proof.
  induction n as [|n IH]; intros e st; cbn [zeros].
  - cbn. intros [= _ <-]. reflexivity.
  - cbn [transform]. destruct (transform (zeros n) no_params) as [[el s1]|x] eqn:Q; cbn [rbind]; [|discriminate].
    specialize (IH _ _ eq_refl). cbn. intros [= _ <-]. cbn [vals]. apply emplace_keeps, IH.
Qed.

(** [a = 0 OR ... OR a = 0 OR b = 7]: after 65536 constants the last one is compared with the first value. *)
Definition zeros_seven (n : nat) : node := Disj (zeros n) (Op (str "=") (Col [] (str "b")) (Lit (LInt 7))).
Definition one_zero : doc := {| did := 1%N; fields := [(str "a", DInt TapeModel.I64 1); (str "b", DInt TapeModel.I64 0)] |}.
Lemma zeros_matched n : matched (zeros n) one_zero = true.
Proof. induction n as [|n IH]; [reflexivity|]. cbn [zeros matched]. rewrite IH. reflexivity. Qed.
Lemma zeros_seven_false n : ~ holds (zeros_seven n) one_zero.
Proof.
  unfold zeros_seven. cbn [holds]. intros [H|(c & x & y & [= <-] & [= <-] & [= <-] & S)].
  - rewrite zeros_holds in H. destruct H as (x & [= <-] & S). discriminate S.
  - discriminate S.
Qed.
Lemma zeros_seven_scan n : (N.of_nat n + 1 = 65536)%N ->
  where_scan (zeros_seven n) (-1) [one_zero] = Ok (Some [one_zero]).
Proof.
  intros L. pose proof (zeros_plain n) as P.
  destruct (transform_ok (zeros n) no_params 0 P added_none) as (e & st & [R A K N S G]).
  { rewrite zeros_constants, L. cbn. lia. }
  pose proof (zeros_values n e st R) as V. rewrite zeros_constants, L in A.
  destruct A as (_ & C & _). change ((0 + 65536) mod 65536)%N with 0%N in C.
  pose proof (G _ (keeps_refl _) one_zero (zeros_matched n)) as GG. 
  assert (T : transform (zeros_seven n) no_params = Ok (Or (or_part e ++ [Param CEq (str "b") 0%N]), 
            {| counter := 1%N; vals := vals st |})).
  { unfold zeros_seven. cbn [transform]. rewrite R. cbn [rbind].
    change (compare_type (str "=")) with (@Ok cmp CEq). cbn [rbind node_value]. unfold add_parameter. rewrite C.
    cbn [rbind or_part]. f_equal. f_equal. unfold emplace. rewrite V. reflexivity. }
  unfold where_scan. rewrite T. cbn [rbind vals].
  unfold full_scan. change (limit_check (-1) 0) with true. cbn [scan_loop].
  assert (RG : regular (Or (or_part e ++ [Param CEq (str "b") 0%N])) (vals st) one_zero None = true).
  { change (regular (Or (or_part e ++ [Param CEq (str "b") 0%N])) (vals st) one_zero None)
      with (forallb (fun e => regular e (vals st) one_zero None) (or_part e ++ [Param CEq (str "b") 0%N])).
    rewrite forallb_app. apply andb_true_iff. split.
    - change (regular (Or (or_part e)) (vals st) one_zero None = true). rewrite regular_or_part. exact GG.
    - cbn. rewrite V. reflexivity. }
  destruct (eval_sat _ _ _ _ RG) as (b & E & Q). rewrite E. cbn [rbind].
  assert (B : b = true).
  { apply Q. rewrite sat_or. right. cbn [sat]. left. exists (DInt TapeModel.I64 0), (DInt TapeModel.I64 0).
    split; [reflexivity|]. split; [exact V|reflexivity]. }
  rewrite B. reflexivity.
Qed.
Theorem many_wrong : exists n, plain n = true /\ matched n one_zero = true /\
  ~ holds n one_zero /\ where_scan n (-1) [one_zero] = Ok (Some [one_zero]).
Proof.
  assert (L : (exists k, N.of_nat k + 1 = 65536)%N) by (exists (N.to_nat 65535); rewrite N2Nat.id; reflexivity).
  destruct L as [k L]. exists (zeros_seven k). split; [|split; [|split]].
  - unfold zeros_seven. cbn [plain]. rewrite zeros_plain. reflexivity.
  - unfold zeros_seven. cbn [matched]. rewrite zeros_matched. reflexivity.
  - apply zeros_seven_false.
  - apply zeros_seven_scan, L.
Qed.

Lemma foreign_fails n : foreign n = true -> forall st r, transform n st <> Ok r.
Proof.
  induction n as [p k|l|l t|l IHl r IHr|l IHl r IHr|r IHr|o l IHl r IHr|o r IHr|l IHl r IHr|a IHa|]; cbn [foreign transform];
    intros H st x; try discriminate.
  - destruct (transform l st) as [[el s1]|e] eqn:E1; cbn [rbind]; [|discriminate].
    destruct (transform r s1) as [[er s2]|e] eqn:E2; cbn [rbind]; [|discriminate].
    apply orb_prop in H as [H|H]; [destruct (IHl H _ _ E1)|destruct (IHr H _ _ E2)].
  - destruct (transform l st) as [[el s1]|e] eqn:E1; cbn [rbind]; [|discriminate].
    destruct (transform r s1) as [[er s2]|e] eqn:E2; cbn [rbind]; [|discriminate].
    apply orb_prop in H as [H|H]; [destruct (IHl H _ _ E1)|destruct (IHr H _ _ E2)].
  - destruct (transform r st) as [[er s1]|e] eqn:E1; cbn [rbind]; [|discriminate]. destruct (IHr H _ _ E1).
  - destruct a; try discriminate; exact (IHa H st x).
Qed.
