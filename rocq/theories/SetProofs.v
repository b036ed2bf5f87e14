(** Proofs about UPDATE statements. *)
From Verif Require Import Bytes Outcome ByteOrd.
From Verif Require TapeModel TapeProofs.
From Verif Require Import IndexModel IndexSpec QueryModel QuerySpec QueryProofs GroupModel SqlModel SqlSpec SqlProofs SetModel SetSpec.
Local Open Scope Z_scope.

(** ** Fields *)
Lemma lookup_put k v fs k' : lookup beqb k' (put_field k v fs) = if beqb k' k then Some v else lookup beqb k' fs.
Proof.
  induction fs as [|[c x] fs IH]; cbn [put_field lookup]; [reflexivity|].
  destruct (beqb k c) eqn:E.
  - apply beqb_eq in E. subst c. cbn [lookup]. destruct (beqb k' k); reflexivity.
  - cbn [lookup]. rewrite IH. destruct (beqb k' c) eqn:E'; [|reflexivity].
    apply beqb_eq in E'. subst c. destruct (beqb k' k) eqn:Q; [|reflexivity].
    apply beqb_eq in Q. subst k'. rewrite (proj2 (beqb_eq k k) eq_refl) in E. discriminate.
Qed.
Lemma field_with d k v k' : field (with_field d k v) k' = if beqb k' k then Some v else field d k'.
Proof. apply lookup_put. Qed.
Lemma beqb_refl' k : beqb k k = true.
Proof. apply beqb_eq. reflexivity. Qed.

Section External.
  Variable other : list byte -> option dval -> option dval -> res (option dval).

  (** [update] stores the value, or the field has it already. *)
  Lemma update_ok d k v : small v = true \/ (exists b, v = DBool b) \/ (exists s, v = DStr s) ->
    storable v (field d k) = true ->
    exists d' m, update d k (Some v) = Ok (d', m) /\ did d' = did d /\
      (forall k', k' <> k -> field d' k' = field d k') /\
      (exists v', field d' k = Some v' /\ same v v') /\
      (m = false -> d' = d) /\ (m = true -> field d' k <> field d k).
  Proof.
    assert (W : forall x, did (with_field d k x) = did d /\
      (forall k', k' <> k -> field (with_field d k x) k' = field d k') /\ field (with_field d k x) k = Some x).
    { intros x. split; [reflexivity|]. split.
      - intros k' N. rewrite field_with. destruct (beqb k' k) eqn:E; [|reflexivity]. apply beqb_eq in E. congruence.
      - rewrite field_with, beqb_refl'. reflexivity. }
    intros K S. destruct v as [ |b|k0 z|s| ].
    - cbn in S. discriminate.
    - cbn [update]. destruct (Bool.eqb (old_bool d k) b) eqn:E.
      + apply Bool.eqb_prop in E. exists d, false. split; [reflexivity|]. split; [reflexivity|].
        split; [reflexivity|]. split; [|split; [reflexivity|discriminate]].
        exists (DBool b). split; [|reflexivity]. revert E S. unfold old_bool. cbn [storable].
        destruct (field d k) as [[]|]; intros <-; cbn; try discriminate; reflexivity.
      + destruct (W (DBool b)) as (W1 & W2 & W3). exists (with_field d k (DBool b)), true.
        split; [reflexivity|]. split; [exact W1|]. split; [exact W2|]. split; [exists (DBool b); split; [exact W3|reflexivity]|].
        split; [discriminate|]. intros _. rewrite W3. intros Q. revert E. unfold old_bool. rewrite <- Q.
        rewrite Bool.eqb_reflx. discriminate.
    - assert (SM : small (DInt k0 z) = true) by (destruct K as [K|[[? K]|[? K]]]; [exact K|discriminate K|discriminate K]).
      assert (T : calc_type k0 = TapeModel.I64 /\ TapeModel.fits TapeModel.I64 z = true).
      { unfold small in SM. destruct k0; try discriminate SM; split; try reflexivity; exact SM. }
      destruct T as [T F]. cbn [update]. rewrite T, (read_as_fits _ _ _ F). cbn [rbind].
      destruct (old_int TapeModel.I64 d k =? z) eqn:E.
      + apply Z.eqb_eq in E. exists d, false. split; [reflexivity|]. split; [reflexivity|].
        split; [reflexivity|]. split; [|split; [reflexivity|discriminate]].
        revert E S. unfold old_int. cbn [storable].
        destruct (field d k) as [[ |b'|k1 z1|s'| ]|] eqn:FK; intros E S; try (subst z; discriminate S).
        rewrite (read_as_fits _ _ _ S) in E. exists (DInt k1 z1). split; [reflexivity|]. cbn. symmetry. exact E.
      + destruct (W (DInt TapeModel.I64 z)) as (W1 & W2 & W3). exists (with_field d k (DInt TapeModel.I64 z)), true.
        split; [reflexivity|]. split; [exact W1|]. split; [exact W2|].
        split; [exists (DInt TapeModel.I64 z); split; [exact W3|reflexivity]|].
        split; [discriminate|]. intros _. rewrite W3. intros Q. revert E. unfold old_int. rewrite <- Q.
        rewrite (read_as_fits _ _ _ F), Z.eqb_refl. discriminate.
    - cbn [update]. destruct (beqb (old_str d k) s) eqn:E.
      + apply beqb_eq in E. exists d, false. split; [reflexivity|]. split; [reflexivity|].
        split; [reflexivity|]. split; [|split; [reflexivity|discriminate]].
        exists (DStr s). split; [|reflexivity]. revert E S. unfold old_str. cbn [storable].
        destruct (field d k) as [[]|]; intros <-; cbn; try discriminate; reflexivity.
      + destruct (W (DStr s)) as (W1 & W2 & W3). exists (with_field d k (DStr s)), true.
        split; [reflexivity|]. split; [exact W1|]. split; [exact W2|]. split; [exists (DStr s); split; [exact W3|reflexivity]|].
        split; [discriminate|]. intros _. rewrite W3. intros Q. revert E. unfold old_str. rewrite <- Q, beqb_refl'. discriminate.
    - cbn in S. discriminate.
  Qed.

  (** ** Expressions *)
  (** The operation each sign stands for. *)
  Definition sign_op (o : list byte) : uop :=
    if beqb o (str "+") then UAdd else if beqb o (str "-") then USub else if beqb o (str "*") then UMul
    else if beqb o (str "/") then UDiv else UMod.
  Lemma arithmetic_sign_op o : arithmetic_sign o = true -> op_of o = Some (sign_op o).
  Proof.
    unfold arithmetic_sign. rewrite !orb_true_iff. intros [[[[H|H]|H]|H]|H]; apply beqb_eq in H; subst o; reflexivity.
  Qed.

  (** The translation [e] of [n], with the parameters [ps]; a column may have been found in the document before. *)
  Inductive means (ps : list (N * dval)) : node -> uexpr -> Prop :=
  | m_col p k s : s <> SFrom -> means ps (Col p k) (UGet k s)
  | m_const n id v : (forall d, expression_value n d = Some v) -> lookup N.eqb id ps = Some v ->
      (match n with Lit (LStr _) | Lit (LInt _) | Cast _ _ => True | _ => False end) -> means ps n (UConst id)
  | m_paren n e : means ps n e -> means ps (Paren n) e
  | m_op o l r el er : arithmetic_sign o = true -> means ps l el -> means ps r er ->
      means ps (Op o l r) (UCalc (sign_op o) el er).
  Lemma means_keeps ps qs n e : keeps ps qs -> means ps n e -> means qs n e.
  Proof.
    intros K M. induction M.
    - constructor; assumption.
    - econstructor; eauto.
    - constructor; assumption.
    - constructor; assumption.
  Qed.

  Lemma transform_set_ok to from n : forall st k, expressible to n = true -> added st k -> (k + literals n <= 65536)%N ->
    exists e st', transform_set to from n st = Ok (e, st') /\ added st' (k + literals n) /\ keeps (vals st) (vals st') /\
      means (vals st') n e.
  Proof.
    induction n as [p c|l|l t|l IHl r IHr|l IHl r IHr|r IH|o l IHl r IHr|o r _|l _ r _|a IH| ]; intros st k X A B;
      try discriminate X.
    - cbn [literals] in *. rewrite N.add_0_r in *. destruct p as [|t [|]]; cbn in X; try discriminate X.
      + exists (UGet c SUndef), st. split; [reflexivity|]. split; [exact A|]. split; [apply keeps_refl|]. constructor. discriminate.
      + exists (UGet c STo), st. cbn. rewrite X. split; [reflexivity|]. split; [exact A|]. split; [apply keeps_refl|].
        constructor. discriminate.
    - cbn [literals] in *. destruct l as [s|z| ]; try discriminate X.
      + destruct (add_ok st k (DStr s) A) as (st' & E & A' & K' & L); [lia|]. exists (UConst k), st'. cbn [transform_set].
        rewrite E. split; [reflexivity|]. split; [exact A'|]. split; [exact K'|].
        eapply m_const; [intros; reflexivity|exact L|exact I].
      + destruct (add_ok st k (DInt TapeModel.I64 z) A) as (st' & E & A' & K' & L); [lia|]. exists (UConst k), st'. cbn [transform_set].
        rewrite E. split; [reflexivity|]. split; [exact A'|]. split; [exact K'|].
        eapply m_const; [intros; reflexivity|exact L|exact I].
    - cbn [literals] in *. destruct l as [s|z| ]; try discriminate X. cbn [expressible] in X. apply andb_true_iff in X.
      destruct X as [T V].
      destruct (add_ok st k (DBool (beqb s (str "t"))) A) as (st' & E & A' & K' & L); [lia|]. exists (UConst k), st'.
      cbn [transform_set]. rewrite E. split; [reflexivity|]. split; [exact A'|]. split; [exact K'|].
      eapply m_const; [|exact L|exact I]. intros d. cbn [expression_value]. rewrite T.
      destruct (beqb s (str "t")); [reflexivity|]. cbn [orb] in V. rewrite V. reflexivity.
    - cbn [expressible] in X. apply andb_true_iff in X. destruct X as [X X3]. apply andb_true_iff in X. destruct X as [X1 X2].
      cbn [literals] in *.
      destruct (IHl st k X2 A) as (el & s1 & E1 & A1 & K1 & M1); [lia|].
      destruct (IHr s1 _ X3 A1) as (er & s2 & E2 & A2 & K2 & M2); [lia|].
      exists (UCalc (sign_op o) el er), s2. cbn [transform_set]. rewrite (arithmetic_sign_op _ X1), E1. cbn [rbind].
      rewrite E2. split; [reflexivity|]. split; [rewrite N.add_assoc; exact A2|].
      split; [exact (keeps_trans _ _ _ K1 K2)|].
      constructor; [exact X1|exact (means_keeps _ _ _ _ K2 M1)|exact M2].
    - cbn [literals expressible transform_set] in *. destruct (IH st k X A B) as (e & s1 & E & A1 & K1 & M1).
      exists e, s1. repeat split; try assumption; try apply A1. constructor. exact M1.
  Qed.

  Definition all_mean ps (cs : list (list byte * node)) (es : list (list byte * uexpr)) : Prop :=
    Forall2 (fun c e => fst c = fst e /\ means ps (snd c) (snd e)) cs es.
  Lemma all_mean_keeps ps qs cs es : keeps ps qs -> all_mean ps cs es -> all_mean qs cs es.
  Proof.
    intros K M. induction M as [|c e cs es [F M] _ IH]; constructor; [|exact IH].
    split; [exact F|exact (means_keeps _ _ _ _ K M)].
  Qed.
  Lemma transform_sets_ok to from cs : forall st k, forallb (fun c => expressible to (snd c)) cs = true -> added st k ->
    (k + all_literals cs <= 65536)%N ->
    exists es st', transform_sets to from cs st = Ok (es, st') /\ added st' (k + all_literals cs) /\
      keeps (vals st) (vals st') /\ all_mean (vals st') cs es.
  Proof.
    unfold all_literals. induction cs as [|[c n] cs IH]; intros st k X A B; cbn [map fold_right snd forallb] in *.
    - exists [], st. rewrite N.add_0_r. split; [reflexivity|]. split; [exact A|]. split; [apply keeps_refl|constructor].
    - apply andb_true_iff in X. destruct X as [X1 X2].
      destruct (transform_set_ok to from n st k X1 A) as (e & s1 & E1 & A1 & K1 & M1); [lia|].
      destruct (IH s1 _ X2 A1) as (es & s2 & E2 & A2 & K2 & M2); [lia|].
      exists ((c, e) :: es), s2. cbn [transform_sets]. rewrite E1. cbn [rbind]. rewrite E2. split; [reflexivity|].
      split; [rewrite N.add_assoc; exact A2|]. split; [exact (keeps_trans _ _ _ K1 K2)|].
      constructor; [split; [reflexivity|exact (means_keeps _ _ _ _ K2 M1)]|exact M2].
  Qed.

  Lemma small_inv v : small v = true -> exists k z, v = DInt k z /\ calc_type k = TapeModel.I64 /\
    TapeModel.fits TapeModel.I64 z = true.
  Proof.
    destruct v as [ | |k z| | ]; try discriminate. intros S. exists k, z. split; [reflexivity|]. unfold small in S.
    destruct k; try discriminate S; split; try reflexivity; exact S.
  Qed.

  Lemma combine_ok o k1 x k2 y z : arithmetic_sign o = true -> calc_type k1 = TapeModel.I64 ->
    TapeModel.fits TapeModel.I64 x = true -> TapeModel.fits TapeModel.I64 y = true ->
    arithmetic o x y = Some z -> TapeModel.fits TapeModel.I64 z = true ->
    negb (beqb o (str "%")) || TapeModel.fits TapeModel.I64 (Z.quot x y) = true ->
    combine_values other (sign_op o) (Some (DInt k1 x)) (Some (DInt k2 y)) = Ok (Some (DInt TapeModel.I64 z)).
  Proof.
    intros S T Fx Fy Az Fz Q.
    assert (R : combine_values other (sign_op o) (Some (DInt k1 x)) (Some (DInt k2 y)) =
                do r <- calc (sign_op o) TapeModel.I64 x y; Ok (Some (DInt TapeModel.I64 r))).
    { unfold arithmetic_sign in S. rewrite !orb_true_iff in S.
      destruct S as [[[[H|H]|H]|H]|H]; apply beqb_eq in H; subst o;
        match goal with |- context [sign_op ?s] => let u := eval vm_compute in (sign_op s) in change (sign_op s) with u end;
        cbn [combine_values]; rewrite T; unfold operand, as_int_of; rewrite (read_as_fits _ _ _ Fx), (read_as_fits _ _ _ Fy); reflexivity. }
    rewrite R. clear R.
    unfold arithmetic_sign in S. rewrite !orb_true_iff in S.
    assert (IT : in_type TapeModel.I64 z = Ok z) by (unfold in_type; cbn [TapeModel.signed]; rewrite Fz; reflexivity).
    destruct S as [[[[H|H]|H]|H]|H]; apply beqb_eq in H; subst o.
    - injection Az as Az. change (sign_op (str "+")) with UAdd. cbn [calc]. rewrite Az, IT. reflexivity.
    - injection Az as Az. change (sign_op (str "-")) with USub. cbn [calc]. rewrite Az, IT. reflexivity.
    - injection Az as Az. change (sign_op (str "*")) with UMul. cbn [calc]. rewrite Az, IT. reflexivity.
    - change (arithmetic (str "/") x y) with (if y =? 0 then None else Some (Z.quot x y)) in Az.
      change (sign_op (str "/")) with UDiv. cbn [calc]. destruct (y =? 0); [discriminate|]. injection Az as Az.
      rewrite Az, IT. reflexivity.
    - change (arithmetic (str "%") x y) with (if y =? 0 then None else Some (Z.rem x y)) in Az.
      change (TapeModel.fits TapeModel.I64 (Z.quot x y) = true) in Q.
      change (sign_op (str "%")) with UMod. cbn [calc]. destruct (y =? 0); [discriminate|]. injection Az as Az.
      rewrite Q, Az, IT. reflexivity.
  Qed.

  Lemma evaluate_ok ps n e : means ps n e -> forall d from, defined n d = true ->
    exists e' v, evaluate other e d from ps = Ok (e', Some v) /\ means ps n e' /\ expression_value n d = Some v /\
      (small v = true \/ (exists b, v = DBool b) \/ (exists s, v = DStr s)).
  Proof.
    intros M. induction M as [p k s NS|n id v V L SH|n e M IH|o l r el er S Ml IHl Mr IHr]; intros d from D.
    - cbn [defined] in D. destruct (field d k) as [v|] eqn:F; [|discriminate].
      assert (G : QueryModel.get_value d k = Some v) by (unfold QueryModel.get_value; rewrite F; destruct v; try reflexivity; discriminate D).
      assert (C : small v = true \/ (exists b, v = DBool b) \/ (exists s, v = DStr s)).
      { destruct v; try discriminate D; [right; left; eauto|left; exact D|right; right; eauto]. }
      destruct s; [| congruence |].
      + exists (UGet k STo), v. cbn [evaluate expression_value]. rewrite G. repeat split; try assumption. constructor. discriminate.
      + exists (UGet k STo), v. cbn [evaluate expression_value]. rewrite F, G. repeat split; try assumption. constructor. discriminate.
    - exists (UConst id), v. cbn [evaluate]. rewrite L. split; [reflexivity|].
      split; [eapply m_const; eauto|]. split; [apply V|].
      specialize (V d). destruct n as [| [s|z|] | [s|z|] t | | | | | | | | ]; try contradiction; cbn [expression_value] in V; try discriminate V.
      + injection V as <-. right; right; eauto.
      + injection V as <-. left. exact D.
      + destruct (beqb t (str "bool")); [|discriminate V].
        destruct (beqb s (str "t")); [injection V as <-; right; left; eauto|].
        destruct (beqb s (str "f")); [injection V as <-; right; left; eauto|discriminate V].
    - cbn [defined expression_value] in *. destruct (IH d from D) as (e' & v & E & M' & V & C).
      exists e', v. repeat split; try assumption. constructor. exact M'.
    - cbn [defined] in D. apply andb_true_iff in D. destruct D as [D D3]. apply andb_true_iff in D. destruct D as [D1 D2].
      destruct (IHl d from D1) as (el' & x & El & Ml' & Vl & _). destruct (IHr d from D2) as (er' & y & Er & Mr' & Vr & _).
      destruct (expression_value (Op o l r) d) as [z|] eqn:VZ; [|rewrite Vl, Vr in D3; discriminate D3].
      rewrite Vl, Vr in D3. apply andb_true_iff in D3. destruct D3 as [D3 Q]. apply andb_true_iff in D3. destruct D3 as [D3 Sz].
      apply andb_true_iff in D3. destruct D3 as [Sx Sy].
      destruct (small_inv _ Sx) as (k1 & a & -> & T1 & Fa). destruct (small_inv _ Sy) as (k2 & b & -> & T2 & Fb).
      cbn [expression_value] in VZ. rewrite Vl, Vr in VZ. destruct (arithmetic o a b) as [c|] eqn:AR; [|discriminate].
      injection VZ as <-.
      exists (UCalc (sign_op o) el' er'), (DInt TapeModel.I64 c). cbn [evaluate]. rewrite El. cbn [rbind]. rewrite Er. cbn [rbind].
      destruct (small_inv _ Sz) as (k3 & c' & [= <- <-] & _ & Fc).
      rewrite (combine_ok o k1 a k2 b c S T1 Fa Fb AR Fc Q). split; [reflexivity|].
      split; [constructor; assumption|]. split; [reflexivity|]. left. exact Sz.
  Qed.

  (** ** The SETs on one document *)
  Lemma value_agree n d d' : (forall k, mentions k n = true -> field d' k = field d k) ->
    expression_value n d' = expression_value n d.
  Proof.
    induction n as [p c|l|l t|l IHl r IHr|l IHl r IHr|r IH|o l IHl r IHr|o r _|l _ r _|a IH| ]; intros H; try reflexivity.
    - apply H. cbn. apply beqb_refl'.
    - cbn [expression_value]. rewrite IHl, IHr; [reflexivity| |]; intros k M; apply H; cbn [mentions]; rewrite M; [apply orb_true_r|reflexivity].
    - cbn [expression_value]. apply IH. exact H.
  Qed.
  Lemma defined_agree n d d' : (forall k, mentions k n = true -> field d' k = field d k) -> defined n d' = defined n d.
  Proof.
    induction n as [p c|l|l t|l IHl r IHr|l IHl r IHr|r IH|o l IHl r IHr|o r _|l _ r _|a IH| ]; intros H; try reflexivity.
    - cbn [defined]. rewrite H; [reflexivity|]. cbn. apply beqb_refl'.
    - assert (HL : forall k, mentions k l = true -> field d' k = field d k) by (intros k M; apply H; cbn [mentions]; rewrite M; reflexivity).
      assert (HR : forall k, mentions k r = true -> field d' k = field d k) by (intros k M; apply H; cbn [mentions]; rewrite M; apply orb_true_r).
      cbn [defined]. rewrite (IHl HL), (IHr HR), (value_agree l d d' HL), (value_agree r d d' HR), (value_agree (Op o l r) d d' H). reflexivity.
    - cbn [defined]. apply IH. exact H.
  Qed.
  Lemma ready_agree k cs d d' :
    forallb (fun c => negb (beqb k (fst c)) && negb (mentions k (snd c))) cs = true ->
    (forall k', k' <> k -> field d' k' = field d k') -> ready cs d' = ready cs d.
  Proof.
    intros I H. unfold ready. induction cs as [|[c n] cs IH]; [reflexivity|]. cbn [forallb fst snd] in *.
    apply andb_true_iff in I. destruct I as [I1 I2]. apply andb_true_iff in I1. destruct I1 as [I1 I3].
    rewrite (IH I2). apply negb_true_iff in I1, I3.
    assert (A : forall k', mentions k' n = true -> field d' k' = field d k') by (intros k' M; apply H; intros ->; congruence).
    rewrite (defined_agree n d d' A), (value_agree n d d' A).
    assert (N : c <> k) by (intros ->; rewrite beqb_refl' in I1; discriminate). rewrite (H c N). reflexivity.
  Qed.

  Lemma run_sets_ok ps from cs : forall es d, all_mean ps cs es -> independent cs = true -> ready cs d = true ->
    exists es' d' m, run_sets other es d from ps = Ok (es', d', m) /\ all_mean ps cs es' /\ updated cs d d' /\
      (m = false -> d' = d) /\ (m = true -> exists k, field d' k <> field d k).
  Proof.
    induction cs as [|[c n] cs IH]; intros es d M I R; inversion M as [|? [c' e] ? es0 [F1 M1] M2]; subst; cbn [fst snd] in *.
    - exists [], d, false. split; [reflexivity|]. split; [constructor|]. split; [split; [reflexivity|intros k; reflexivity]|].
      split; [reflexivity|discriminate].
    - subst c'. cbn [independent] in I. apply andb_true_iff in I. destruct I as [I1 I2].
      change (ready ((c, n) :: cs) d) with
        (defined n d && match expression_value n d with Some v => storable v (field d c) | None => false end && ready cs d) in R.
      apply andb_true_iff in R. destruct R as [R R2]. apply andb_true_iff in R. destruct R as [D S].
      destruct (evaluate_ok ps n e M1 d from D) as (e' & v & E & M1' & V & C). rewrite V in S.
      destruct (update_ok d c v C S) as (d1 & m1 & U & ID & O & (v' & F & SA) & MF & MT).
      rewrite <- (ready_agree c cs d d1 I1 O) in R2.
      destruct (IH es0 d1 M2 I2 R2) as (es' & d' & m & RS & M2' & [ID' UP] & MF' & MT').
      exists ((c, e') :: es'), d', (m1 || m). cbn [run_sets]. rewrite E. cbn [rbind]. rewrite U. cbn [rbind]. rewrite RS.
      split; [reflexivity|]. split; [constructor; [split; [reflexivity|exact M1']|exact M2']|].
      (* the columns after the first *)
      assert (NC : lookup beqb c cs = None).
      { clear - I1. induction cs as [|[k x] cs IH]; [reflexivity|]. cbn [forallb fst snd lookup] in *.
        apply andb_true_iff in I1. destruct I1 as [I1 I2]. apply andb_true_iff in I1. destruct I1 as [I1 _].
        apply negb_true_iff in I1. rewrite I1. apply IH, I2. }
      assert (NM : forall k x, lookup beqb k cs = Some x -> mentions c x = false).
      { clear - I1. induction cs as [|[k x] cs IH]; intros k' x'; cbn [lookup]; [discriminate|]. cbn [forallb fst snd] in *.
        apply andb_true_iff in I1. destruct I1 as [I1 I2]. apply andb_true_iff in I1. destruct I1 as [_ I1].
        destruct (beqb k' k); [intros [= <-]; apply negb_true_iff, I1|apply IH, I2]. }
      pose proof (UP c) as UC. rewrite NC in UC.
      split; [|split].
      + split; [congruence|]. intros k. cbn [lookup]. destruct (beqb k c) eqn:Q.
        * apply beqb_eq in Q. subst k. exists v, v'. rewrite UC. auto.
        * assert (QN : k <> c) by (intros ->; rewrite beqb_refl' in Q; discriminate).
          specialize (UP k). destruct (lookup beqb k cs) as [x|] eqn:L.
          -- destruct UP as (a & b & A1 & A2 & A3). exists a, b. split; [|auto]. rewrite <- A1. symmetry. apply value_agree.
             intros k' K'. apply O. intros ->. rewrite (NM k x L) in K'. discriminate.
          -- rewrite UP. apply O. exact QN.
      + intros Z. apply orb_false_iff in Z. destruct Z as [Z1 Z2]. rewrite (MF' Z2). apply MF, Z1.
      + destruct m1.
        * intros _. exists c. rewrite UC. apply MT. reflexivity.
        * intros Z. destruct (MT' Z) as [k K]. exists k. rewrite (MF eq_refl) in K. exact K.
  Qed.

  (** ** All documents *)
  Lemma run_documents_ok ps cs ds : independent cs = true -> (forall d, In d ds -> ready cs d = true) ->
    forall es, all_mean ps cs es ->
    exists out (gs : list bool), run_documents other es ds ps =
        Ok (out, map did (map fst (filter snd (combine ds gs))), map did (map fst (filter (fun x => negb (snd x)) (combine ds gs)))) /\
      length gs = length ds /\ Forall2 (updated cs) ds out /\
      Forall2 (fun g p => if g : bool then snd p <> fst p else snd p = fst p) gs (combine ds out).
  Proof.
    intros I. induction ds as [|d ds IH]; intros R es M.
    - exists [], []. repeat split; constructor.
    - destruct (run_sets_ok ps None cs es d M I (R d (or_introl eq_refl))) as (es' & d' & m & E & M' & U & MF & MT).
      destruct (IH (fun x H => R x (or_intror H)) es' M') as (out & gs & E' & L & F & G).
      exists (d' :: out), (m :: gs). cbn [run_documents]. rewrite E. cbn [rbind]. rewrite E'. cbn [rbind combine filter snd].
      split; [destruct m; reflexivity|]. split; [cbn; congruence|]. split; [constructor; assumption|].
      cbn [combine]. constructor; [|exact G]. cbn [fst snd]. destruct m.
      + destruct (MT eq_refl) as [k K]. intros ->. congruence.
      + apply MF. reflexivity.
  Qed.

  Lemma find_updated cs l out d : Forall2 (updated cs) l out -> NoDup (ids l) -> In d l ->
    exists d', find (fun c => N.eqb (did c) (did d)) out = Some d' /\ updated cs d d' /\ In (d, d') (combine l out).
  Proof.
    induction 1 as [|x x' l out U F IH]; intros N H; [destruct H|]. cbn [find ids map] in *. inversion N as [|? ? N1 N2]; subst.
    destruct U as [ID UP]. rewrite ID. destruct H as [->|H].
    - rewrite N.eqb_refl. exists x'. split; [reflexivity|]. split; [split; assumption|left; reflexivity].
    - destruct (N.eqb_spec (did x) (did d)) as [E|E].
      + exfalso. apply N1. rewrite E. apply in_map, H.
      + destruct (IH N2 H) as (d' & D1 & D2 & D3). exists d'. split; [exact D1|]. split; [exact D2|right; exact D3].
  Qed.
  Lemma find_none cs l out i : Forall2 (updated cs) l out -> ~ In i (ids l) -> find (fun c => N.eqb (did c) i) out = None.
  Proof.
    induction 1 as [|x x' l out [ID _] F IH]; intros N; [reflexivity|]. cbn [find ids map] in *. rewrite ID.
    destruct (N.eqb_spec (did x) i) as [E|E]; [exfalso; apply N; left; exact E|]. apply IH. intros Q. apply N. right. exact Q.
  Qed.

  Lemma Forall2_len {A B} (P : A -> B -> Prop) l l' : Forall2 P l l' -> length l' = length l.
  Proof. induction 1; cbn; congruence. Qed.
  Lemma choose (l : list doc) : forall gs, NoDup (ids l) -> length gs = length l -> exists g : doc -> bool, map g l = gs.
  Proof.
    induction l as [|x l IH]; intros [|b gs] N L; try discriminate L.
    - exists (fun _ => true). reflexivity.
    - inversion N as [|? ? N1 N2]; subst. destruct (IH gs N2 (f_equal pred L)) as [g G].
      exists (fun d => if N.eqb (did d) (did x) then b else g d). cbn [map]. rewrite N.eqb_refl. f_equal. rewrite <- G.
      apply map_ext_in. intros d D. destruct (N.eqb_spec (did d) (did x)) as [E|E]; [|reflexivity].
      exfalso. apply N1. rewrite <- E. apply in_map, D.
  Qed.
  Lemma filter_choice (g h : doc -> bool) (t : bool -> bool) l : (forall d, t (g d) = h d) ->
    map fst (filter (fun x => t (snd x)) (combine l (map g l))) = filter h l.
  Proof.
    intros H. induction l as [|x l IH]; [reflexivity|]. cbn [map combine filter snd]. rewrite H.
    destruct (h x); cbn [map fst]; rewrite IH; reflexivity.
  Qed.
  Lemma Forall2_choice (g : doc -> bool) (P : bool -> doc * doc -> Prop) l : forall out, length out = length l ->
    Forall2 P (map g l) (combine l out) -> forall d d', In (d, d') (combine l out) -> P (g d) (d, d').
  Proof.
    induction l as [|x l IH]; intros [|y out] L F d d' H; try discriminate L; [destruct H|]. cbn [map combine] in *.
    inversion F as [|? ? ? ? F1 F2]; subst. destruct H as [[= <- <-]|H]; [exact F1|].
    exact (IH out (f_equal pred L) F2 d d' H).
  Qed.
  Lemma filter_filter_and (f g : doc -> bool) l : filter g (filter f l) = filter (fun d => f d && g d) l.
  Proof. induction l as [|x l IH]; [reflexivity|]. cbn. destruct (f x); cbn; [destruct (g x)|]; rewrite IH; reflexivity. Qed.
  Lemma NoDup_filter_ids (f : doc -> bool) l : NoDup (ids l) -> NoDup (ids (filter f l)).
  Proof.
    unfold ids. induction l as [|x l IH]; intros N; [constructor|]. cbn [map filter] in *. inversion N as [|? ? N1 N2]; subst.
    destruct (f x); [|apply IH, N2]. cbn [map]. constructor; [|apply IH, N2]. intros H. apply N1.
    apply in_map_iff in H. destruct H as (y & E & Y). apply filter_In in Y. rewrite <- E. apply in_map, (proj1 Y).
  Qed.

  Theorem update_statement_ok to cs w f ds :
    forallb (fun c => expressible to (snd c)) cs = true -> independent cs = true ->
    match w with Some n => plain n = true | None => True end ->
    (all_literals cs + match w with Some n => constants n | None => 0 end <= 65536)%N ->
    NoDup (ids ds) ->
    (forall d, In d ds -> match w with Some n => matched n d = true /\ (f d = true <-> holds n d) | None => f d = true end) ->
    (forall d, In d ds -> f d = true -> ready cs d = true) ->
    exists ds' changed, update_statement other to cs w ds =
        Ok (ds', ids (filter (fun d => f d && changed d) ds), ids (filter (fun d => f d && negb (changed d)) ds)) /\
      Forall2 (fun d d' => if f d then updated cs d d' /\ (changed d = true <-> d' <> d) else d' = d) ds ds'.
  Proof.
    intros X I P B N W R.
    destruct (transform_sets_ok to [] cs no_params 0 X added_none) as (es & s1 & E1 & A1 & K1 & M1); [lia|].
    assert (T : exists e s2, match w with None => Ok (AllTrue, s1) | Some n => transform n s1 end = Ok (e, s2) /\
                keeps (vals s1) (vals s2) /\ forall d, In d ds -> eval e (vals s2) d None = Ok (f d)).
    { destruct w as [n|].
      - destruct (transform_ok n s1 _ P A1) as (e & s2 & [TR TA TK TN TS TG]); [lia|]. exists e, s2.
        split; [exact TR|]. split; [exact TK|]. intros d D. destruct (W d D) as [MD F].
        destruct (eval_sat e (vals s2) d None (TG _ (keeps_refl _) d MD)) as (b & EB & Q). rewrite EB. f_equal.
        pose proof (TS _ (keeps_refl _) d) as SD.
        apply eq_true_iff_eq. rewrite Q, SD, F. reflexivity.
      - exists AllTrue, s1. split; [reflexivity|]. split; [apply keeps_refl|]. intros d D. rewrite (W d D). reflexivity. }
    destruct T as (e & s2 & E2 & K2 & EV).
    destruct (full_scan_filter _ f (-1) ds EV) as (o & E3 & AN). change (limited (-1) ?l) with l in AN.
    destruct (run_documents_ok (vals s2) cs (filter f ds) I) with (es := es) as (out & gs & E4 & L & F & G).
    { intros d D. apply filter_In in D. apply R; apply D. }
    { exact (all_mean_keeps _ _ _ _ K2 M1). }
    pose proof (NoDup_filter_ids f ds N) as NF. destruct (choose _ gs NF L) as [g GS]. subst gs.
    exists (store ds out), g. split.
    - unfold update_statement. rewrite E1. cbn [rbind]. rewrite E2. cbn [rbind]. rewrite E3. cbn [rbind].
      change (match o with Some l => l | None => [] end) with (answer o). rewrite AN, E4. cbn [rbind].
      rewrite (filter_choice g g (fun b => b)) by reflexivity.
      rewrite (filter_choice g (fun d => negb (g d)) negb) by reflexivity.
      rewrite !filter_filter_and. reflexivity.
    - unfold store.
      assert (Q : forall l, (forall d, In d l -> In d ds) -> Forall2 (fun d d' => if f d then updated cs d d' /\ (g d = true <-> d' <> d) else d' = d) l
        (map (fun d => match find (fun c => N.eqb (did c) (did d)) out with Some c => c | None => d end) l)).
      { induction l as [|d l IH]; intros S; [constructor|]. cbn [map]. constructor; [|apply IH; intros x H; apply S; right; exact H].
        pose proof (S d (or_introl eq_refl)) as D. destruct (f d) eqn:FD.
        - assert (DF : In d (filter f ds)) by (apply filter_In; split; assumption).
          destruct (find_updated cs _ out d F NF DF) as (d' & D1 & D2 & D3). rewrite D1. split; [exact D2|].
          pose proof (Forall2_choice g _ _ out (Forall2_len _ _ _ F) G d d' D3) as H. cbn [fst snd] in H.
          destruct (g d); split; try discriminate; try tauto.
        - rewrite (find_none cs _ out (did d) F); [reflexivity|]. intros H. apply in_map_iff in H. destruct H as (y & E & Y).
          apply filter_In in Y. destruct Y as [Y1 Y2].
          assert (y = d); [|subst y; congruence].
          clear - N Y1 D E. unfold ids in N. induction ds as [|z zs IHz]; [destruct D|]. cbn [map] in N. inversion N as [|? ? N1 N2]; subst.
          destruct Y1 as [->|Y1], D as [->|D]; try reflexivity.
          + exfalso. apply N1. rewrite E. apply in_map, D.
          + exfalso. apply N1. rewrite <- E. apply in_map, Y1.
          + apply IHz; assumption. }
      apply Q. intros d D. exact D.
  Qed.
End External.
