(** Proofs about queries over documents. *)
From Verif Require Import Bytes Outcome ByteOrd IndexModel IndexSpec QueryModel QuerySpec.
From Verif Require TapeModel TapeProofs.
From Coq Require Import Sorting.Sorted Sorting.Permutation.
Local Open Scope Z_scope.

(** ** Predicates *)
Lemma read_as_fits to from z : TapeModel.fits to z = true -> read_as to from z = Ok z.
Proof.
  intros F. unfold read_as. rewrite (TapeProofs.cast_ok to z F).
  apply TapeProofs.fits_iff in F.
  destruct (TapeModel.direct to from); [reflexivity|].
  destruct (TapeModel.signed from).
  - destruct (TapeModel.signed to) eqn:S.
    + destruct (TapeModel.imax to <? z) eqn:A; [apply Z.ltb_lt in A; lia|].
      destruct (z <? TapeModel.imin to) eqn:B; [apply Z.ltb_lt in B; lia|]. reflexivity.
    + destruct (z <? 0) eqn:B; [|reflexivity]. apply Z.ltb_lt in B. unfold TapeModel.imin in F. rewrite S in F. lia.
  - destruct (TapeModel.imax to <? z) eqn:A; [apply Z.ltb_lt in A; lia|]. reflexivity.
Qed.

Lemma three_way_compare a b : three_way a b = (a ?= b).
Proof.
  unfold three_way. destruct (Z.ltb_spec a b) as [L|L].
  - symmetry. apply Z.compare_lt_iff. exact L.
  - destruct (Z.ltb_spec b a) as [M|M]; symmetry; [apply Z.compare_gt_iff|apply Z.compare_eq_iff]; lia.
Qed.

Lemma compare_order x v : comparable x v = true -> exists o, order x v = Some o /\ compare_ x v = Ok o /\ x <> DNest /\ v <> DNest.
Proof.
  destruct x, v; cbn; try discriminate; intros C.
  - exists Eq. repeat split; discriminate.
  - eexists. rewrite three_way_compare. repeat split; discriminate.
  - apply andb_true_iff in C. destruct C as [A B]. eexists.
    rewrite (read_as_fits _ _ _ A), (read_as_fits _ _ _ B). cbn. rewrite three_way_compare. repeat split; discriminate.
  - eexists. repeat split; discriminate.
Qed.

Lemma test_stands c x v o : order x v = Some o -> (test c o = true <-> stands c x v).
Proof.
  intros H. destruct c, o; cbn; rewrite H; split; intros; try discriminate; try congruence; try tauto;
    try (left; reflexivity); try (right; reflexivity); try (destruct H0; discriminate).
Qed.

Definition decides (m : res bool) (P : Prop) : Prop := exists b, m = Ok b /\ (b = true <-> P).

Lemma compare_value_ok l k x v c : field l k = Some x -> comparable x v = true ->
  decides (do o <- compare_value l k (Some v); Ok (test c o)) (stands c x v).
Proof.
  intros F C. destruct (compare_order _ _ C) as (o & O & K & N & _).
  exists (test c o). split; [|apply test_stands; exact O].
  unfold compare_value. rewrite F. destruct x; try congruence; rewrite K; reflexivity.
Qed.

Section Induction.
  Variable P : expr -> Prop.
  Hypothesis PT : P AllTrue.
  Hypothesis PF : P AllFalse.
  Hypothesis PP : forall c k p, P (Param c k p).
  Hypothesis PK : forall c k k', P (Keys c k k').
  Hypothesis PA : forall es, Forall P es -> P (And es).
  Hypothesis PO : forall es, Forall P es -> P (Or es).
  Hypothesis PN : forall es, Forall P es -> P (Not es).
  Fixpoint expr_ind' (e : expr) : P e :=
    let all := fix all es : Forall P es := match es with [] => Forall_nil _ | e :: r => Forall_cons _ (expr_ind' e) (all r) end in
    match e with
    | AllTrue => PT | AllFalse => PF | Param c k p => PP c k p | Keys c k k' => PK c k k'
    | And es => PA es (all es) | Or es => PO es (all es) | Not es => PN es (all es)
    end.
End Induction.

Theorem eval_sat e ps l r : regular e ps l r = true -> decides (eval e ps l r) (sat e ps l r).
Proof.
  induction e as [ | |c k p|c k k'|es IH|es IH|es IH] using expr_ind'; intros R.
  - exists true. cbn. tauto.
  - exists false. cbn. split; [reflexivity|]. split; [discriminate|tauto].
  - cbn [eval sat regular] in R |- *. destruct (lookup N.eqb p ps) as [v|] eqn:L.
    + destruct (field l k) as [x|] eqn:F; [|discriminate].
      destruct (compare_value_ok l k x v c F R) as (b & E & B). exists b. split; [exact E|]. rewrite B. split.
      * intros H. exists x, v. auto.
      * intros (x' & v' & X & V & H). congruence.
    + exists false. split; [reflexivity|]. split; [discriminate|]. intros (x & v & _ & V & _). congruence.
  - cbn [eval sat regular] in R |- *. destruct (field l k) as [x|] eqn:F; [|discriminate].
    set (o := match r with Some r0 => r0 | None => l end) in *.
    destruct (field o k') as [v|] eqn:G; [|discriminate].
    assert (V : match r with Some r0 => get_value r0 k' | None => get_value l k' end = Some v).
    { destruct (compare_order _ _ R) as (_ & _ & _ & _ & N).
      replace (match r with Some r0 => get_value r0 k' | None => get_value l k' end) with (get_value o k')
        by (unfold o; destruct r; reflexivity).
      unfold get_value. rewrite G. destruct v; congruence. }
    rewrite V. destruct (compare_value_ok l k x v c F R) as (b & E & B). exists b. split; [exact E|]. rewrite B. split.
    + intros H. exists x, v. auto.
    + intros (x' & v' & X & V' & H). congruence.
  - cbn in R. induction es as [|e es IHes]; cbn.
    + exists true. tauto.
    + cbn in R. apply andb_true_iff in R. destruct R as [R1 R2]. inversion IH as [|? ? H1 H2]; subst.
      destruct (H1 R1) as (b & E & B). destruct (IHes H2 R2) as (b' & E' & B'). rewrite E. cbn in E' |- *.
      destruct b.
      * exists b'. split; [exact E'|]. cbn in B'. tauto.
      * exists false. split; [reflexivity|]. split; [discriminate|]. tauto.
  - cbn in R. induction es as [|e es IHes]; cbn.
    + exists false. split; [reflexivity|]. split; [discriminate|tauto].
    + cbn in R. apply andb_true_iff in R. destruct R as [R1 R2]. inversion IH as [|? ? H1 H2]; subst.
      destruct (H1 R1) as (b & E & B). destruct (IHes H2 R2) as (b' & E' & B'). rewrite E. cbn in E' |- *.
      destruct b.
      * exists true. tauto.
      * exists b'. split; [exact E'|]. cbn in B'. assert (~ sat e ps l r) by (rewrite <- B; discriminate). tauto.
  - destruct es as [|e es]; cbn in R |- *; [discriminate|]. inversion IH as [|? ? H1 H2]; subst.
    destruct (H1 R) as (b & E & B). rewrite E. cbn. exists (negb b). split; [reflexivity|].
    rewrite negb_true_iff, <- B. destruct b; split; congruence.
Qed.

(** ** Scans *)
Lemma limit_check_room limit count : limit_check limit count = true <-> limit = -1 \/ Z.of_nat count < limit.
Proof. unfold limit_check. rewrite orb_true_iff, Z.eqb_eq, Z.ltb_lt. reflexivity. Qed.

(** What is left of a limit after [count]. *)
Definition room {A} (limit : Z) (count : nat) (l : list A) : list A :=
  if limit =? -1 then l else firstn (Z.to_nat limit - count) l.
Lemma room_cons {A} limit count (a : A) l : limit_check limit count = true ->
  room limit count (a :: l) = a :: (if limit_check limit (S count) then room limit (S count) l else []).
Proof.
  intros C. apply limit_check_room in C. unfold room. destruct (limit =? -1) eqn:E.
  - unfold limit_check. rewrite E. reflexivity.
  - apply Z.eqb_neq in E. destruct C as [C|C]; [contradiction|].
    replace (Z.to_nat limit - count)%nat with (S (Z.to_nat limit - S count)) by lia. cbn [firstn]. f_equal.
    destruct (limit_check limit (S count)) eqn:D; [reflexivity|].
    assert (~ (limit = -1 \/ Z.of_nat (S count) < limit)) by (rewrite <- limit_check_room; congruence).
    replace (Z.to_nat limit - S count)%nat with 0%nat by lia. reflexivity.
Qed.
Lemma room_nil {A} limit count : room limit count (@nil A) = [].
Proof. unfold room. rewrite firstn_nil. destruct (limit =? -1); reflexivity. Qed.
Lemma room_0 {A} limit (l : list A) : room limit 0 l = limited limit l.
Proof. unfold room, limited. rewrite Nat.sub_0_r. reflexivity. Qed.
Lemma no_room {A} limit (l : list A) : limit_check limit 0 = false -> limited limit l = [].
Proof.
  intros C. assert (~ (limit = -1 \/ Z.of_nat 0 < limit)) by (rewrite <- limit_check_room; congruence).
  unfold limited. destruct (limit =? -1) eqn:E; [apply Z.eqb_eq in E; lia|].
  replace (Z.to_nat limit) with 0%nat by lia. reflexivity.
Qed.

Lemma scan_loop_filter p f limit ds : (forall d, In d ds -> p d = Ok (f d)) -> forall count, limit_check limit count = true ->
  scan_loop p limit count ds = Ok (room limit count (filter f ds)).
Proof.
  induction ds as [|d ds IH]; intros H count C; cbn.
  - rewrite room_nil. reflexivity.
  - rewrite (H d) by (left; reflexivity). cbn.
    assert (H' : forall d, In d ds -> p d = Ok (f d)) by (intros; apply H; right; assumption).
    destruct (f d).
    + rewrite room_cons by exact C. destruct (limit_check limit (S count)) eqn:D; [|reflexivity].
      rewrite (IH H' _ D). reflexivity.
    + apply IH; assumption.
Qed.

Theorem full_scan_filter p f limit ds : (forall d, In d ds -> p d = Ok (f d)) ->
  exists o, full_scan p limit ds = Ok o /\ answer o = limited limit (filter f ds).
Proof.
  intros H. unfold full_scan. destruct (limit_check limit 0) eqn:C.
  - rewrite (scan_loop_filter p f limit ds H 0 C). eexists. split; [reflexivity|]. apply room_0.
  - eexists. split; [reflexivity|]. cbn. symmetry. apply no_room. exact C.
Qed.

Lemma full_scan_some p limit ds o : full_scan p limit ds = Ok o -> limit_check limit 0 = true -> o <> None.
Proof. unfold full_scan. intros H C. rewrite C in H. destruct (scan_loop p limit 0 ds); cbn in H; congruence. Qed.

(** An error of the scan is the error of a document that was read. *)
Lemma scan_loop_error p limit ds e : forall count, scan_loop p limit count ds = Err e -> exists d, In d ds /\ p d = Err e.
Proof.
  induction ds as [|d ds IH]; intros count; cbn; [discriminate|].
  destruct (p d) as [b|x] eqn:E; cbn.
  - destruct b.
    + destruct (limit_check limit (S count)); [|discriminate].
      destruct (scan_loop p limit (S count) ds) eqn:Q; cbn; [discriminate|]. intros [= ->].
      destruct (IH _ Q) as (d' & I & H). exists d'. auto.
    + intros Q. destruct (IH _ Q) as (d' & I & H). exists d'. auto.
  - intros [= ->]. exists d. auto.
Qed.
Theorem full_scan_error p limit ds e : full_scan p limit ds = Err e -> exists d, In d ds /\ p d = Err e.
Proof.
  unfold full_scan. destruct (limit_check limit 0); [|discriminate].
  destruct (scan_loop p limit 0 ds) eqn:Q; cbn; [discriminate|]. intros [= ->]. eapply scan_loop_error, Q.
Qed.

(** ** Merging *)
Lemma has_id_In ds i : has_id ds i = true <-> In i (ids ds).
Proof.
  unfold has_id, ids. rewrite existsb_exists, in_map_iff. split.
  - intros (d & I & E). apply N.eqb_eq in E. exists d. auto.
  - intros (d & E & I). exists d. split; [exact I|]. apply N.eqb_eq. exact E.
Qed.

Lemma and_loop_filter right limit left : forall count, limit_check limit count = true ->
  and_loop right limit count left = room limit count (filter (fun d => has_id right (did d)) left).
Proof.
  induction left as [|d left IH]; intros count C; cbn; [rewrite room_nil; reflexivity|].
  destruct (has_id right (did d)).
  - rewrite room_cons by exact C. destruct (limit_check limit (S count)) eqn:D; [|reflexivity]. rewrite IH by exact D. reflexivity.
  - apply IH. exact C.
Qed.
Lemma not_loop_filter left limit stored : forall count, limit_check limit count = true ->
  not_loop left limit count stored = room limit count (filter (fun d => negb (has_id left (did d))) stored).
Proof.
  induction stored as [|d stored IH]; intros count C; cbn; [rewrite room_nil; reflexivity|].
  destruct (has_id left (did d)); cbn.
  - apply IH. exact C.
  - rewrite room_cons by exact C. destruct (limit_check limit (S count)) eqn:D; [|reflexivity]. rewrite IH by exact D. reflexivity.
Qed.

(** The documents of the right that are new, the first of each id. *)
Fixpoint news (out right : list doc) : list doc :=
  match right with
  | [] => []
  | d :: r => if has_id out (did d) then news out r else d :: news (out ++ [d]) r
  end.
Lemma or_right_news limit right : forall out, limit_check limit (length out) = true ->
  or_right limit out right = out ++ room limit (length out) (news out right).
Proof.
  induction right as [|d right IH]; intros out C; cbn.
  - rewrite room_nil, app_nil_r. reflexivity.
  - destruct (has_id out (did d)); [apply IH; exact C|].
    rewrite room_cons by exact C. destruct (limit_check limit (S (length out))) eqn:D; [|reflexivity].
    rewrite IH by (rewrite app_length; cbn; rewrite Nat.add_1_r; exact D).
    rewrite app_length. cbn. rewrite Nat.add_1_r, <- app_assoc. reflexivity.
Qed.
Lemma or_left_room limit left : forall out, limit_check limit (length out) = true ->
  let '(o, full) := or_left limit out left in
  o = out ++ room limit (length out) left /\
  (if full then limit <> -1 /\ Z.of_nat (length out + length left) >= limit else o = out ++ left /\ limit_check limit (length o) = true).
Proof.
  induction left as [|d left IH]; intros out C; cbn [or_left].
  - rewrite room_nil, app_nil_r. auto.
  - rewrite room_cons by exact C. destruct (limit_check limit (S (length out))) eqn:D.
    + specialize (IH (out ++ [d])). rewrite app_length in IH. cbn [length] in IH. rewrite Nat.add_1_r in IH.
      specialize (IH D). destruct (or_left limit (out ++ [d]) left) as [o full]. destruct IH as [-> IH].
      rewrite <- app_assoc. split; [reflexivity|]. destruct full.
      * destruct IH as [N L]. split; [exact N|]. cbn [length]. lia.
      * rewrite <- !app_assoc in IH. exact IH.
    + split; [reflexivity|]. assert (~ (limit = -1 \/ Z.of_nat (S (length out)) < limit)) by (rewrite <- limit_check_room; congruence).
      cbn [length]. split; [tauto|lia].
Qed.

Definition union (left right : list doc) : list doc := left ++ news left right.

Lemma limited_app_short {A} limit (a b : list A) : limit <> -1 -> Z.of_nat (length a) >= limit -> limited limit (a ++ b) = limited limit a.
Proof.
  intros N L. unfold limited. destruct (limit =? -1) eqn:E; [apply Z.eqb_eq in E; contradiction|].
  rewrite firstn_app. replace (Z.to_nat limit - length a)%nat with 0%nat by lia. cbn. apply app_nil_r.
Qed.
Lemma limited_app_long {A} limit (a b : list A) : limit_check limit (length a) = true -> limited limit (a ++ b) = a ++ room limit (length a) b.
Proof.
  intros C. apply limit_check_room in C. unfold limited, room. destruct (limit =? -1) eqn:E; [reflexivity|].
  apply Z.eqb_neq in E. rewrite firstn_app. rewrite firstn_all2 by lia. reflexivity.
Qed.

Theorem and_limited limit left right : answer (operator_and limit (Some left) (Some right)) =
  limited limit (answer (operator_and (-1) (Some left) (Some right))).
Proof.
  unfold operator_and. change (limit_check (-1) 0) with true. cbn [answer].
  rewrite (and_loop_filter right (-1)) by reflexivity. change (room (-1) 0 ?l) with l.
  destruct (limit_check limit 0) eqn:C; cbn [answer].
  - rewrite and_loop_filter by exact C. apply room_0.
  - symmetry. apply no_room, C.
Qed.
Theorem and_inter left right d :
  In d (answer (operator_and (-1) (Some left) (Some right))) <-> In d left /\ In (did d) (ids right).
Proof.
  unfold operator_and. change (limit_check (-1) 0) with true. cbn [answer].
  rewrite (and_loop_filter right (-1)) by reflexivity. change (room (-1) 0 ?l) with l.
  rewrite filter_In, has_id_In. reflexivity.
Qed.

Theorem not_limited limit stored left : answer (operator_not limit stored (Some left)) =
  limited limit (answer (operator_not (-1) stored (Some left))).
Proof.
  unfold operator_not. change (limit_check (-1) 0) with true. cbn [answer].
  rewrite (not_loop_filter left (-1)) by reflexivity. change (room (-1) 0 ?l) with l.
  destruct (limit_check limit 0) eqn:C; cbn [answer].
  - rewrite not_loop_filter by exact C. apply room_0.
  - symmetry. apply no_room, C.
Qed.
Theorem not_compl stored left d :
  In d (answer (operator_not (-1) stored (Some left))) <-> In d stored /\ ~ In (did d) (ids left).
Proof.
  unfold operator_not. change (limit_check (-1) 0) with true. cbn [answer].
  rewrite (not_loop_filter left (-1)) by reflexivity. change (room (-1) 0 ?l) with l.
  rewrite filter_In, negb_true_iff, <- has_id_In. destruct (has_id left (did d)); intuition congruence.
Qed.

Lemma or_union limit left right : answer (operator_or limit (Some left) (Some right)) = limited limit (union left right).
Proof.
  unfold operator_or. destruct (limit_check limit 0) eqn:C; [|symmetry; apply no_room, C].
  pose proof (or_left_room limit left [] C) as H. destruct (or_left limit [] left) as [o full]. cbn [answer].
  destruct H as [H1 H2]. cbn in H1, H2. destruct full.
  - destruct H2 as [N L]. unfold union. rewrite limited_app_short by lia. rewrite H1. apply room_0.
  - destruct H2 as [-> K]. rewrite or_right_news by exact K. unfold union. symmetry. apply limited_app_long. exact K.
Qed.
Theorem or_limited limit left right : answer (operator_or limit (Some left) (Some right)) =
  limited limit (answer (operator_or (-1) (Some left) (Some right))).
Proof. rewrite !or_union. reflexivity. Qed.

Lemma ids_app a b : ids (a ++ b) = ids a ++ ids b.
Proof. apply map_app. Qed.
Lemma news_In right : forall out d, In d (news out right) -> In d right /\ ~ In (did d) (ids out).
Proof.
  induction right as [|x right IH]; intros out d; cbn; [tauto|].
  destruct (has_id out (did x)) eqn:H.
  - intros I. apply IH in I. tauto.
  - cbn. intros [->|I].
    + split; [auto|]. rewrite <- has_id_In. congruence.
    + apply IH in I. rewrite ids_app, in_app_iff in I. tauto.
Qed.
Lemma news_ids right : forall out i, In i (ids right) -> In i (ids out) \/ In i (ids (news out right)).
Proof.
  induction right as [|x right IH]; intros out i; cbn; [tauto|].
  destruct (has_id out (did x)) eqn:H.
  - apply has_id_In in H. intros [<-|I]; auto.
  - intros [<-|I]; [right; left; reflexivity|]. destruct (IH (out ++ [x]) i I) as [J|J].
    + rewrite ids_app, in_app_iff in J. cbn in J. cbn. tauto.
    + right. right. exact J.
Qed.
Lemma news_NoDup right : forall out, NoDup (ids (news out right)).
Proof.
  induction right as [|x right IH]; intros out; cbn; [constructor|].
  destruct (has_id out (did x)) eqn:H; [apply IH|]. cbn. constructor; [|apply IH].
  intros I. apply in_map_iff in I. destruct I as (d & E & I). apply news_In in I. destruct I as [_ N]. apply N.
  rewrite ids_app, in_app_iff. right. left. symmetry. exact E.
Qed.
Lemma NoDup_app_disj {A} (a b : list A) : NoDup a -> NoDup b -> (forall x, In x a -> In x b -> False) -> NoDup (a ++ b).
Proof.
  induction 1 as [|x a N _ IH]; cbn; [auto|]. intros B D. constructor.
  - rewrite in_app_iff. intros [I|I]; [auto|]. apply (D x); [left; reflexivity|exact I].
  - apply IH; [exact B|]. intros y I J. apply (D y); [right; exact I|exact J].
Qed.
Lemma union_spec left right :
  (forall d, In d left -> In d (union left right)) /\
  (forall d, In d (union left right) -> In d left \/ In d right) /\
  (forall i, In i (ids (union left right)) <-> In i (ids left) \/ In i (ids right)) /\
  (NoDup (ids left) -> NoDup (ids (union left right))).
Proof.
  unfold union. repeat split.
  - intros d I. apply in_app_iff. auto.
  - intros d I. apply in_app_iff in I. destruct I as [I|I]; [auto|]. apply news_In in I. tauto.
  - rewrite ids_app, in_app_iff. intros [I|I]; [auto|]. right. apply in_map_iff in I. destruct I as (d & <- & I).
    apply news_In in I. apply in_map. tauto.
  - rewrite ids_app, in_app_iff. intros [I|I]; [auto|]. apply news_ids. exact I.
  - intros N. rewrite ids_app. apply NoDup_app_disj; [exact N|apply news_NoDup|].
    intros i I J. apply in_map_iff in J. destruct J as (d & <- & J). apply news_In in J. tauto.
Qed.
Theorem or_spec left right : let out := answer (operator_or (-1) (Some left) (Some right)) in
  (forall d, In d left -> In d out) /\
  (forall d, In d out -> In d left \/ In d right) /\
  (forall i, In i (ids out) <-> In i (ids left) \/ In i (ids right)) /\
  (NoDup (ids left) -> NoDup (ids out)).
Proof. cbn zeta. rewrite or_union. change (limited (-1) ?l) with l. apply union_spec. Qed.

Lemma NoDup_ids_filter f ds : NoDup (ids ds) -> NoDup (ids (filter f ds)).
Proof.
  induction ds as [|d ds IH]; cbn; [auto|]. intros H. inversion H as [|? ? N R]; subst.
  destruct (f d); cbn; [|auto]. constructor; [|auto].
  intros I. apply N. apply in_map_iff in I. destruct I as (x & E & I). apply filter_In in I. apply in_map_iff. exists x. tauto.
Qed.
Theorem and_NoDup left right : NoDup (ids left) -> NoDup (ids (answer (operator_and (-1) (Some left) (Some right)))).
Proof.
  intros N. unfold operator_and. change (limit_check (-1) 0) with true. cbn [answer].
  rewrite (and_loop_filter right (-1)) by reflexivity. change (room (-1) 0 ?l) with l. apply NoDup_ids_filter, N.
Qed.
Theorem not_NoDup stored left : NoDup (ids stored) -> NoDup (ids (answer (operator_not (-1) stored (Some left)))).
Proof.
  intros N. unfold operator_not. change (limit_check (-1) 0) with true. cbn [answer].
  rewrite (not_loop_filter left (-1)) by reflexivity. change (room (-1) 0 ?l) with l. apply NoDup_ids_filter, N.
Qed.

(** ** The documents of a collection *)
Lemma well_stored_NoDup ds : well_stored ds -> NoDup (ids ds).
Proof.
  unfold well_stored. induction (ids ds) as [|i l IH]; [constructor|]. intros H. inversion H as [|? ? S F]; subst.
  constructor; [|auto]. intros I. rewrite Forall_forall in F. specialize (F _ I). lia.
Qed.

Lemma put_ids_In d ds i : In i (ids (put d ds)) -> i = did d \/ In i (ids ds).
Proof.
  induction ds as [|x ds IH]; cbn; [intuition|].
  destruct (N.compare_spec (did d) (did x)); cbn; [rewrite H| |]; intuition.
Qed.
Lemma put_well_stored d ds : well_stored ds -> well_stored (put d ds).
Proof.
  unfold well_stored. induction ds as [|x ds IH]; cbn; intros H.
  - constructor; constructor.
  - inversion H as [|? ? S F]; subst. destruct (N.compare_spec (did d) (did x)) as [E|E|E]; cbn.
    + rewrite E. exact H.
    + constructor; [exact H|]. constructor; [exact E|]. rewrite Forall_forall in *. intros i I. specialize (F i I). lia.
    + constructor; [auto|]. rewrite Forall_forall in *. intros i I. destruct (put_ids_In _ _ _ I) as [->|J]; auto.
Qed.
Lemma put_In d ds x : well_stored ds -> (In x (put d ds) <-> x = d \/ (In x ds /\ did x <> did d)).
Proof.
  unfold well_stored. induction ds as [|y ds IH]; cbn [put].
  - cbn. intuition.
  - intros H. cbn in H. inversion H as [|? ? S F]; subst. rewrite Forall_forall in F.
    assert (L : forall z, In z ds -> (did y < did z)%N) by (intros z I; apply F, in_map, I).
    destruct (N.compare_spec (did d) (did y)) as [E|E|E]; cbn [In].
    + split.
      * intros [->|I]; [auto|]. right. specialize (L x I). split; [auto|lia].
      * intros [->|[[->|I] N]]; [auto|congruence|auto].
    + split.
      * intros [->|[->|I]]; [auto| |]; right; (split; [auto|]); [lia|]. specialize (L x I). lia.
      * intros [->|[[->|I] N]]; auto.
    + rewrite (IH S). split.
      * intros [->|[->|[I N]]]; [right|auto|right]; (split; [auto|]); [lia|exact N].
      * intros [->|[[->|I] N]]; auto.
Qed.

Lemma put_all_well batch : forall ds, well_stored ds -> well_stored (fold_left (fun s d => put d s) batch ds).
Proof. induction batch as [|d batch IH]; cbn; intros ds H; [exact H|]. apply IH, put_well_stored, H. Qed.
Lemma put_all_In batch : forall ds x, well_stored ds -> NoDup (ids batch) ->
  (In x (fold_left (fun s d => put d s) batch ds) <-> In x batch \/ (In x ds /\ ~ In (did x) (ids batch))).
Proof.
  induction batch as [|d batch IH]; cbn; intros ds x W N; [tauto|]. inversion N as [|? ? N1 N2]; subst.
  rewrite (IH _ _ (put_well_stored _ _ W) N2), (put_In _ _ _ W). split.
  - intros [I|[[->|[I E]] J]]; [auto|auto|]. right. split; [exact I|]. intros [K|K]; [congruence|auto].
  - intros [[->|I]|[I J]]; [right|auto|right]; [split; auto|]. split; [|tauto]. right. split; [exact I|]. intros K. apply J. left. congruence.
Qed.

Theorem insert_well stored batch : well_stored stored -> well_stored (fst (insert stored batch)).
Proof. unfold insert. destruct (primary_key_scan stored batch) eqn:E; cbn; intros W; [apply put_all_well, W|exact W]. Qed.

Theorem insert_rejected stored batch d : In d batch -> In (did d) (ids stored) -> insert stored batch = (stored, []).
Proof.
  intros I J. unfold insert, primary_key_scan.
  replace (existsb (fun d => has_id stored (did d)) batch) with true; [reflexivity|].
  symmetry. apply existsb_exists. exists d. split; [exact I|]. apply has_id_In, J.
Qed.
Theorem insert_accepted stored batch : well_stored stored -> NoDup (ids batch) ->
  (forall d, In d batch -> ~ In (did d) (ids stored)) ->
  snd (insert stored batch) = ids batch /\ forall d, In d (fst (insert stored batch)) <-> In d stored \/ In d batch.
Proof.
  intros W N F. unfold insert, primary_key_scan.
  replace (existsb (fun d => has_id stored (did d)) batch) with false.
  - cbn. split; [reflexivity|]. intros d. rewrite (put_all_In _ _ _ W N). split; [tauto|]. intros [I|I]; [right|auto].
    split; [exact I|]. intros J. apply in_map_iff in J. destruct J as (x & E & J). apply (F x J). rewrite E. apply in_map, I.
  - symmetry. apply not_true_is_false. intros E. apply existsb_exists in E. destruct E as (d & I & H).
    apply has_id_In in H. exact (F d I H).
Qed.

(** ** Deleting *)
Lemma erase_In i ds x : In x (erase_id i ds) <-> In x ds /\ did x <> i.
Proof. unfold erase_id. rewrite filter_In, negb_true_iff, N.eqb_neq. reflexivity. Qed.
Lemma ids_filter_sorted f ds : well_stored ds -> well_stored (filter f ds).
Proof.
  unfold well_stored. induction ds as [|d ds IH]; cbn; [auto|]. intros H. inversion H as [|? ? S F]; subst.
  destruct (f d); cbn; [|auto]. constructor; [auto|]. rewrite Forall_forall in *. intros i I. apply F.
  apply in_map_iff in I. destruct I as (x & <- & I). apply filter_In in I. apply in_map. tauto.
Qed.

Lemma delete_fold found : forall s r,
  let '(s', r') := fold_left delete_one found (s, r) in
  s' = filter (fun d => negb (has_id found (did d))) s /\
  exists new, r' = r ++ new /\ NoDup new /\ forall i, In i new <-> In i (ids found) /\ In i (ids s).
Proof.
  induction found as [|d found IH]; intros s r; cbn [fold_left].
  - split; [clear; induction s as [|x s IH]; cbn; [reflexivity|f_equal; exact IH]|]. exists []. rewrite app_nil_r. split; [reflexivity|]. split; [constructor|]. cbn. tauto.
  - unfold delete_one at 2. destruct (has_id s (did d)) eqn:H.
    + specialize (IH (erase_id (did d) s) (r ++ [did d])).
      destruct (fold_left delete_one found (erase_id (did d) s, r ++ [did d])) as [s' r'].
      destruct IH as (-> & new & -> & N & M). split.
      * unfold erase_id. clear. induction s as [|x s IH]; cbn; [reflexivity|].
        rewrite (N.eqb_sym (did d)). destruct (N.eqb (did x) (did d)); cbn; [exact IH|]. rewrite IH. reflexivity.
      * exists (did d :: new). rewrite <- app_assoc. split; [reflexivity|].
        assert (E : forall i, In i (ids (erase_id (did d) s)) <-> In i (ids s) /\ i <> did d).
        { intros i. unfold ids. rewrite !in_map_iff. split.
          - intros (x & <- & I). apply erase_In in I. split; [exists x; tauto|tauto].
          - intros ((x & <- & I) & K). exists x. split; [reflexivity|]. apply erase_In. auto. }
        split.
        { constructor; [|exact N]. intros I. apply M in I. rewrite E in I. tauto. }
        apply has_id_In in H. intros i. cbn. rewrite M, E. split.
        { intros [<-|I]; tauto. }
        { intros [[I|I] J]; [auto|]. destruct (N.eq_dec i (did d)) as [->|K]; [auto|tauto]. }
    + specialize (IH s r). destruct (fold_left delete_one found (s, r)) as [s' r'].
      destruct IH as (-> & new & -> & N & M). split.
      * assert (K : forall x, In x s -> did x <> did d).
        { intros x I E. assert (has_id s (did d) = true) by (apply has_id_In; rewrite <- E; apply in_map, I). congruence. }
        clear - K. induction s as [|x s IH]; cbn; [reflexivity|]. rewrite IH by (intros; apply K; right; assumption).
        assert (E : N.eqb (did d) (did x) = false) by (apply N.eqb_neq; intros E; apply (K x); [left; reflexivity|congruence]).
        rewrite E. reflexivity.
      * exists new. split; [reflexivity|]. split; [exact N|]. intros i. rewrite M. cbn.
        assert (~ In (did d) (ids s)) by (rewrite <- has_id_In; congruence). split; [tauto|]. intros [[<-|I] J]; tauto.
Qed.

Theorem delete_spec stored found :
  (forall d, In d (fst (delete stored found)) <-> In d stored /\ ~ In (did d) (ids found)) /\
  NoDup (snd (delete stored found)) /\
  (forall i, In i (snd (delete stored found)) <-> In i (ids found) /\ In i (ids stored)) /\
  (well_stored stored -> well_stored (fst (delete stored found))).
Proof.
  unfold delete. pose proof (delete_fold found stored []) as H.
  destruct (fold_left delete_one found (stored, [])) as [s' r']. destruct H as (-> & new & -> & N & M). cbn.
  split.
  { intros d. rewrite filter_In, negb_true_iff, <- has_id_In. destruct (has_id found (did d)); intuition congruence. }
  split; [exact N|]. split; [exact M|]. apply ids_filter_sorted.
Qed.

(** Deleting what a filter finds leaves what it does not. *)
Lemma filter_filter_ids f stored : NoDup (ids stored) ->
  filter (fun d => negb (has_id (filter f stored) (did d))) stored = filter (fun d => negb (f d)) stored.
Proof.
  intros N. apply filter_ext_in. intros d I. f_equal. destruct (f d) eqn:F.
  - apply has_id_In. apply in_map, filter_In. auto.
  - apply not_true_is_false. intros H. apply has_id_In, in_map_iff in H. destruct H as (x & E & J). apply filter_In in J.
    destruct J as [J K]. assert (x = d); [|congruence].
    clear - N E I J. induction stored as [|y s IH]; [destruct I|]. cbn in N. inversion N as [|? ? A B]; subst.
    destruct I as [->|I], J as [->|J]; [reflexivity| | |auto].
    + exfalso. apply A. rewrite <- E. apply in_map, J.
    + exfalso. apply A. rewrite E. apply in_map, I.
Qed.
Theorem delete_where p f stored : well_stored stored -> (forall d, In d stored -> p d = Ok (f d)) ->
  exists found, full_scan p (-1) stored = Ok (Some found) /\
    fst (delete stored found) = filter (fun d => negb (f d)) stored /\
    Permutation (snd (delete stored found)) (ids (filter f stored)).
Proof.
  intros W H. destruct (full_scan_filter p f (-1) stored H) as (o & E & A).
  destruct o as [found|]; [|exfalso; exact (full_scan_some _ _ _ _ E eq_refl eq_refl)].
  cbn in A. change (limited (-1) ?l) with l in A. subst found. exists (filter f stored). split; [exact E|].
  pose proof (well_stored_NoDup _ W) as N. split.
  - unfold delete. pose proof (delete_fold (filter f stored) stored []) as D.
    destruct (fold_left delete_one (filter f stored) (stored, [])) as [s' r']. destruct D as (-> & _). cbn.
    apply filter_filter_ids, N.
  - destruct (delete_spec stored (filter f stored)) as (_ & N' & M & _). apply NoDup_Permutation; [exact N'| |].
    + apply NoDup_ids_filter, N.
    + intros i. rewrite M. split; [tauto|]. intros I. split; [exact I|]. apply in_map_iff in I. destruct I as (d & <- & I).
      apply filter_In in I. apply in_map. tauto.
Qed.

Lemma any_match_spec p g right : (forall r, In r right -> p r = Ok (g r)) -> any_match p right = Ok (existsb g right).
Proof.
  induction right as [|r right IH]; intros H; cbn; [reflexivity|]. rewrite (H r) by (left; reflexivity). cbn.
  destruct (g r); [reflexivity|]. cbn. apply IH. intros. apply H. right. assumption.
Qed.
Theorem delete_join_spec p g right left : (forall l r, In l left -> In r right -> p l r = Ok (g l r)) ->
  forall acc, delete_join p right left acc = Ok (fold_left delete_one (filter (fun l => existsb (g l) right) left) acc).
Proof.
  induction left as [|l left IH]; intros H acc; cbn; [reflexivity|].
  rewrite (any_match_spec (p l) (g l)) by (intros; apply H; [left; reflexivity|assumption]). cbn.
  rewrite IH by (intros; apply H; [right; assumption|assumption]).
  destruct (existsb (g l) right); reflexivity.
Qed.
