From Verif Require Import Bytes Outcome VersionModel VersionSpec.
From Coq Require Import ZifyBool ZifyNat ZifyN.
Local Open Scope nat_scope.

(** the vector size is only used through these facts *)
Lemma CAP_big : 1 < CAP.
Proof. apply Nat.ltb_lt. reflexivity. Qed.
Lemma div_le_iff x i : x / CAP <= i <-> x < i * CAP + CAP.
Proof.
  pose proof CAP_big as B. pose proof (Nat.div_mod x CAP ltac:(lia)). pose proof (Nat.mod_upper_bound x CAP ltac:(lia)). split; intros; nia.
Qed.
Lemma le_div_iff x i : i <= x / CAP <-> i * CAP <= x.
Proof.
  pose proof CAP_big as B. pose proof (Nat.div_mod x CAP ltac:(lia)). pose proof (Nat.mod_upper_bound x CAP ltac:(lia)). split; intros; nia.
Qed.
Lemma mul_lt i j : i < j -> i * CAP + CAP <= j * CAP.
Proof. intros. nia. Qed.
(** facts about every quotient in sight *)
Ltac quot x :=
  lazymatch goal with
  | _ : x / CAP * CAP <= x |- _ => fail
  | _ => pose proof (proj1 (le_div_iff x (x / CAP)) (Nat.le_refl _)); pose proof (proj1 (div_le_iff x (x / CAP)) (Nat.le_refl _))
  end.
Ltac quots := pose proof CAP_big; repeat match goal with
  | |- context [?x / CAP] => quot x
  | H : context [?x / CAP] |- _ => quot x
  end.
Ltac dlia := quots; nia.
Ltac csplit := repeat match goal with |- _ /\ _ => split end.

Definition id_of (w : who) : N := match w with Running t => t | Committed c => c end.
Definition who_ok (w : who) : Prop := match w with Running t => running_id t | Committed c => time_ok c end.
Definition rep_ins (l id : N) (w : who) : Prop := id = id_of w \/ (old l w /\ (id <= l)%N).
Definition del_id (d : option who) : N := match d with None => NOT_DELETED_ID | Some w => id_of w end.

Notation R i p := (i * CAP + p).
Definition chunk_ok (a : astate) (i : nat) (o : option chunk) : Prop :=
  match o with
  | None => forall p, p < CAP -> R i p < total a -> old (low a) (a_ins (row a (R i p))) /\ a_del (row a (R i p)) = None
  | Some (Const id d) => (i + 1) * CAP <= total a /\ d = NOT_DELETED_ID /\
      forall p, p < CAP -> rep_ins (low a) id (a_ins (row a (R i p))) /\ a_del (row a (R i p)) = None
  | Some (Vec v) => i * CAP < total a /\
      (forall p, p < CAP -> R i p < total a ->
         rep_ins (low a) (inserted v p) (a_ins (row a (R i p))) /\ deleted v p = del_id (a_del (row a (R i p)))) /\
      (any_deleted v = false -> forall p, p < CAP -> deleted v p = NOT_DELETED_ID) /\
      (same_inserted v = true -> forall p, p < CAP -> R i p < total a -> inserted v p = insert_id v) /\
      (forall p, p < CAP -> total a <= R i p -> deleted v p = NOT_DELETED_ID)
  end.
Definition rows_ok (a : astate) : Prop :=
  forall r, r < total a -> who_ok (a_ins (row a r)) /\ match a_del (row a r) with Some w => who_ok w | None => True end.
Definition Inv (a : astate) (m : manager) : Prop :=
  (forall i, chunk_ok a i (get_chunk m i)) /\ rows_ok a /\ time_ok (low a).

(** ** Seeing *)
Lemma use_ok a x id w : txn_ok a x -> time_ok (low a) -> who_ok w -> rep_ins (low a) id w -> use_version x id = sees x w.
Proof.
  intros [X1 X2] T W [->|[(c & -> & Hc) Hi]]; unfold use_version, sees, running_id, time_ok, who_ok, id_of in *.
  - destruct w as [t|c]; cbn beta iota in *; unfold running_id, time_ok in *; lia.
  - cbn beta iota in *; lia.
Qed.
Lemma use_del a x d : txn_ok a x -> match d with Some w => who_ok w | None => True end ->
  use_version x (del_id d) = match d with Some w => sees x w | None => false end.
Proof.
  intros [X1 X2] D. unfold use_version, sees, running_id, time_ok, who_ok, del_id, id_of in *.
  destruct d as [[t|c]|]; cbn beta iota in *; unfold running_id, time_ok, TRANSACTION_ID_START in *; change NOT_DELETED_ID with 18446744073709551614%N in *; lia.
Qed.

Lemma filter_all {A} (f : A -> bool) l : (forall x, In x l -> f x = true) -> filter f l = l.
Proof.
  induction l as [|x l IH]; intros H; [reflexivity|]. cbn. rewrite (H x (or_introl eq_refl)), IH; [reflexivity|].
  intros y Hy. apply H. right. exact Hy.
Qed.
Lemma filter_none {A} (f : A -> bool) l : (forall x, In x l -> f x = false) -> filter f l = [].
Proof.
  induction l as [|x l IH]; intros H; [reflexivity|]. cbn. rewrite (H x (or_introl eq_refl)). apply IH.
  intros y Hy. apply H. right. exact Hy.
Qed.
Lemma filter_eq {A} (f g : A -> bool) l : (forall x, In x l -> f x = g x) -> filter f l = filter g l.
Proof.
  induction l as [|x l IH]; intros H; [reflexivity|]. cbn. rewrite (H x (or_introl eq_refl)), IH; [reflexivity|].
  intros y Hy. apply H. right. exact Hy.
Qed.

Lemma visible_old a x r : txn_ok a x -> old (low a) (a_ins r) -> a_del r = None -> visible x r = true.
Proof. intros [X1 X2] (c & E & Hc) D. unfold visible. rewrite E, D. cbn. lia. Qed.

Lemma fetch_ok a m x r : Inv a m -> txn_ok a x -> r < total a -> fetch x m r = visible x (row a r).
Proof.
  intros (C & W & T) X H. unfold fetch. specialize (C (r / CAP)). 
  assert (E : r = R (r / CAP) (r - r / CAP * CAP)) by lia.
  assert (P : r - r / CAP * CAP < CAP) by dlia.
  remember (r / CAP) as i. remember (r - i * CAP) as p. clear Heqi Heqp. subst r.
  destruct (W _ H) as [W1 W2].
  destruct (get_chunk m i) as [[id d|v]|]; cbn [chunk_ok chunk_fetch] in *.
  - destruct C as (C1 & -> & C3). destruct (C3 p P) as [I D]. unfold visible. rewrite (use_ok a x id _ X T W1 I), D.
    change NOT_DELETED_ID with (del_id None). rewrite (use_del a x None X Logic.I). reflexivity.
  - destruct C as (C1 & C2 & _). destruct (C2 p P H) as [I D]. unfold visible. rewrite (use_ok a x _ _ X T W1 I), D, (use_del a x _ X W2). reflexivity.
  - destruct (C p P H) as [O D]. symmetry. apply (visible_old a); assumption.
Qed.

Lemma select_ok a m x i n : Inv a m -> txn_ok a x -> n <= CAP -> i * CAP + n <= total a ->
  select x m i n = filter (fun p => visible x (row a (R i p))) (seq 0 n).
Proof.
  intros (C & W & T) X Hn Hm. unfold select. specialize (C i).
  assert (ND : use_version x NOT_DELETED_ID = false) by (apply (use_del a x None X Logic.I)).
  destruct (get_chunk m i) as [[id d|v]|]; cbn [chunk_ok chunk_select] in *.
  - destruct C as (C1 & -> & C3). rewrite ND. cbn [negb]. rewrite andb_true_r.
    assert (V : forall p, In p (seq 0 n) -> visible x (row a (R i p)) = use_version x id).
    { intros p Hp. apply in_seq in Hp. destruct (C3 p ltac:(lia)) as [I D]. destruct (W (R i p) ltac:(lia)) as [W1 _].
      unfold visible. rewrite (use_ok a x id _ X T W1 I), D. cbn [negb]. apply andb_true_r. }
    destruct (use_version x id); [rewrite filter_all; [reflexivity|exact V]|rewrite filter_none; [reflexivity|exact V]].
  - destruct C as (C1 & C2 & C3 & C4 & C5).
    assert (V : forall p, In p (seq 0 n) -> visible x (row a (R i p)) = use_version x (inserted v p) && negb (use_version x (deleted v p))).
    { intros p Hp. apply in_seq in Hp. destruct (C2 p ltac:(lia) ltac:(lia)) as [I D]. destruct (W (R i p) ltac:(lia)) as [W1 W2].
      unfold visible. rewrite (use_ok a x _ _ X T W1 I), D, (use_del a x _ X W2). reflexivity. }
    assert (VS : same_inserted v = true -> forall p, In p (seq 0 n) -> inserted v p = insert_id v).
    { intros S p Hp. apply in_seq in Hp. apply C4; [exact S|lia|lia]. }
    assert (VD : any_deleted v = false -> forall p, In p (seq 0 n) -> use_version x (deleted v p) = false).
    { intros A p Hp. apply in_seq in Hp. rewrite C3; [exact ND|exact A|lia]. }
    destruct (same_inserted v) eqn:S, (any_deleted v) eqn:A; cbn [andb negb].
    + destruct (use_version x (insert_id v)) eqn:U; cbn [negb].
      * apply filter_eq. intros p Hp. rewrite V, VS, U by auto. reflexivity.
      * symmetry. apply filter_none. intros p Hp. rewrite V, VS, U by auto. reflexivity.
    + destruct (use_version x (insert_id v)) eqn:U.
      * symmetry. apply filter_all. intros p Hp. rewrite V, VS, U, VD by auto. reflexivity.
      * symmetry. apply filter_none. intros p Hp. rewrite V, VS, U by auto. reflexivity.
    + apply filter_eq. intros p Hp. rewrite V by auto. reflexivity.
    + apply filter_eq. intros p Hp. rewrite V, VD by auto. cbn. rewrite andb_true_r. reflexivity.
  - symmetry. apply filter_all. intros p Hp. apply in_seq in Hp. destruct (C p ltac:(lia) ltac:(lia)) as [O D]. apply (visible_old a); assumption.
Qed.

(** ** Lists of infos *)
Lemma get_put m i j c : i < length m -> get_chunk (put m i c) j = if j =? i then c else get_chunk m j.
Proof.
  unfold get_chunk. revert i j. induction m as [|x m IH]; intros i j H; [cbn in H; lia|].
  destruct i as [|i]; destruct j as [|j]; cbn [put nth_error Nat.eqb]; try reflexivity. apply IH. cbn in H. lia.
Qed.
Lemma put_length m i c : length (put m i c) = length m.
Proof. revert i. induction m as [|x m IH]; intros [|i]; cbn; auto. Qed.
Lemma get_fill m i j : get_chunk (fill_info m i) j = get_chunk m j.
Proof.
  unfold fill_info, get_chunk. destruct (Nat.lt_ge_cases j (length m)) as [H|H].
  - rewrite nth_error_app1 by exact H. reflexivity.
  - rewrite nth_error_app2 by exact H. rewrite (proj2 (nth_error_None m j) H).
    destruct (nth_error (repeat None (S i - length m)) (j - length m)) as [o|] eqn:E; [|reflexivity].
    apply nth_error_In, repeat_spec in E. exact E.
Qed.
Lemma fill_length m i : i < length (fill_info m i).
Proof. unfold fill_info. rewrite app_length, repeat_length. lia. Qed.
Lemma get_lt m i c : get_chunk m i = Some c -> i < length m.
Proof. unfold get_chunk. destruct (nth_error m i) eqn:E; [|discriminate]. intros _. apply nth_error_Some. congruence. Qed.


Lemma vloop_gen a a' one L : forall n lo,
  (forall m i, lo <= i < lo + n -> length m = L -> chunk_ok a i (get_chunk m i) ->
     exists m', one m i = Ok m' /\ chunk_ok a' i (get_chunk m' i) /\ length m' = L /\ forall j, j <> i -> get_chunk m' j = get_chunk m j) ->
  forall m, length m = L -> (forall j, lo <= j < lo + n -> chunk_ok a j (get_chunk m j)) ->
  exists m', vloop n one m lo = Ok m' /\ (forall j, lo <= j < lo + n -> chunk_ok a' j (get_chunk m' j)) /\
             (forall j, ~ (lo <= j < lo + n) -> get_chunk m' j = get_chunk m j).
Proof.
  induction n as [|n IH]; intros lo H m Hm C; cbn [vloop].
  - exists m. csplit; [reflexivity|intros; lia|reflexivity].
  - destruct (H m lo ltac:(lia) Hm (C lo ltac:(lia))) as (m1 & -> & C1 & L1 & F1). cbn [rbind].
    destruct (IH (S lo)) with (m := m1) as (m2 & E2 & C2 & F2).
    + intros m' i Hi. apply H. lia.
    + exact L1.
    + intros j Hj. rewrite F1 by lia. apply C. lia.
    + exists m2. csplit; [exact E2| |].
      * intros j Hj. destruct (Nat.eq_dec j lo) as [->|Hn]; [rewrite F2 by lia; exact C1|apply C2; lia].
      * intros j Hj. rewrite F2 by lia. apply F1. lia.
Qed.
Lemma vloop_ok a a' one n lo m :
  (forall m' i, lo <= i < lo + n -> length m' = length m -> chunk_ok a i (get_chunk m' i) ->
     exists m'', one m' i = Ok m'' /\ chunk_ok a' i (get_chunk m'' i) /\ length m'' = length m /\ forall j, j <> i -> get_chunk m'' j = get_chunk m' j) ->
  (forall j, chunk_ok a j (get_chunk m j)) -> (forall j o, ~ (lo <= j < lo + n) -> chunk_ok a j o -> chunk_ok a' j o) ->
  exists m', vloop n one m lo = Ok m' /\ forall j, chunk_ok a' j (get_chunk m' j).
Proof.
  intros H C K. destruct (vloop_gen a a' one (length m) n lo H m eq_refl (fun j _ => C j)) as (m' & E & C1 & F). exists m'. split; [exact E|].
  intros j. destruct (Nat.le_gt_cases lo j) as [A|A]; [destruct (Nat.lt_ge_cases j (lo + n)) as [B|B]|].
  - apply C1. lia.
  - apply K; [lia|]. rewrite F by lia. apply C.
  - apply K; [lia|]. rewrite F by lia. apply C.
Qed.

(** positions of a range inside a vector *)
Lemma v_range s e i p : s < e -> s / CAP <= i <= (e - 1) / CAP -> p < CAP ->
  ((v_start s i <=? p) && (p <? v_end e i) = true <-> s <= R i p < e).
Proof.
  intros H Hi Hp. unfold v_start, v_end. 
  destruct (i =? s / CAP) eqn:E1; destruct (i =? (e - 1) / CAP) eqn:E2; dlia.
Qed.
Lemma v_full s e i : s < e -> s / CAP <= i <= (e - 1) / CAP -> v_start s i = 0 -> v_end e i = CAP -> s <= i * CAP /\ (i + 1) * CAP <= e.
Proof.
  intros H Hi. unfold v_start, v_end. 
  destruct (i =? s / CAP) eqn:E1; destruct (i =? (e - 1) / CAP) eqn:E2; dlia.
Qed.

Lemma put_one m i c (P : option chunk -> Prop) : i < length m -> P c -> exists m', put m i c = m' /\ P (get_chunk m' i) /\
  length m' = length m /\ forall j, j <> i -> get_chunk m' j = get_chunk m j.
Proof.
  intros H Hc. exists (put m i c). csplit; [reflexivity| | |].
  - rewrite get_put by exact H. rewrite Nat.eqb_refl. exact Hc.
  - apply put_length.
  - intros j Hj. rewrite get_put by exact H. apply Nat.eqb_neq in Hj. rewrite Hj. reflexivity.
Qed.

(** ** The steps *)
Lemma append_step a m t n : Inv a m -> legal a (Append t n) ->
  exists m', mstep a m (Append t n) = Ok m' /\ Inv (astep a (Append t n)) m'.
Proof.
  intros (C & W & T) [Hn Ht]. cbn [mstep]. unfold append_version_info. 
  set (a' := astep a (Append t n)). set (s := total a) in *. set (e := s + n).
  assert (se : s < e) by (unfold e; lia).
  assert (RA : forall r, s <= r < e -> row a' r = {| a_ins := Running t; a_del := None |}).
  { intros r Hr. unfold a'. cbn [astep row]. fold s. fold e. destruct ((s <=? r) && (r <? e)) eqn:E; [reflexivity|lia]. }
  assert (RB : forall r, r < s -> row a' r = row a r).
  { intros r Hr. unfold a'. cbn [astep row]. fold s. fold e. destruct ((s <=? r) && (r <? e)) eqn:E; [lia|reflexivity]. }
  assert (TA : total a' = e) by reflexivity. assert (LA : low a' = low a) by reflexivity.
  assert (IA : forall r, s <= r < e -> rep_ins (low a) t (a_ins (row a' r)) /\ NOT_DELETED_ID = del_id (a_del (row a' r))).
  { intros r Hr. rewrite RA by exact Hr. split; [left; reflexivity|reflexivity]. }
  destruct (vloop_ok a a' (fun m i => append_one m t s e i) (S ((e - 1) / CAP) - s / CAP) (s / CAP) (fill_info m ((e - 1) / CAP)))
    as (m' & E & C').
  - intros m1 i Hi L1 C1. pose proof (fill_length m ((e - 1) / CAP)) as FL.
    assert (Hl : i < length m1) by lia. assert (Hi' : s / CAP <= i <= (e - 1) / CAP) by lia.
    pose proof (fun p => v_range s e i p se Hi') as VR.
    unfold append_one.  rewrite <- L1.
    destruct ((v_start s i =? 0) && (v_end e i =? CAP)) eqn:F.
    + destruct (v_full s e i se Hi' ltac:(lia) ltac:(lia)) as [F1 F2].
      destruct (put_one m1 i (Some (Const t NOT_DELETED_ID)) (chunk_ok a' i) Hl) as (m2 & -> & H1 & H2 & H3).
      { cbn [chunk_ok]. rewrite TA, LA. csplit; [exact F2|reflexivity|]. intros p Hp. rewrite RA by lia. split; [left; reflexivity|reflexivity]. }
      exists m2. auto.
    + destruct (get_chunk m1 i) as [[id d|v]|] eqn:G.
      * cbn [chunk_ok] in C1. destruct C1 as (C1 & _). exfalso. dlia.
      * cbn [chunk_ok] in C1. destruct C1 as (C1 & C2 & C3 & C4 & C5).
        destruct (put_one m1 i (Some (Vec (v_append v (v_start s i) (v_end e i) t))) (chunk_ok a' i) Hl) as (m2 & -> & H1 & H2 & H3); [|exists m2; auto].
        assert (VS : v_start s i <> 0).
        { unfold v_start.  destruct (i =? s / CAP) eqn:E1; dlia. }
        cbn [chunk_ok]. unfold v_append. apply Nat.eqb_neq in VS. rewrite VS. rewrite TA, LA.
        destruct (negb (insert_id v =? t)%N) eqn:Q; cbn [inserted insert_id same_inserted deleted any_deleted]; unfold fill.
        -- csplit; [lia| |exact C3|discriminate|].
           ++ intros p Hp Hr. destruct (Nat.lt_ge_cases (R i p) s) as [Z|Z].
              ** destruct ((v_start s i <=? p) && (p <? v_end e i)) eqn:V; [apply VR in V; lia|]. rewrite RB by exact Z. apply C2; assumption.
              ** rewrite (proj2 (VR p Hp)) by lia. rewrite C5 by assumption. apply IA. lia.
           ++ intros p Hp Hr. apply C5; [exact Hp|lia].
        -- assert (insert_id v = t) as Qt by (apply negb_false_iff, N.eqb_eq in Q; exact Q). csplit; [lia| |exact C3| |].
           ++ intros p Hp Hr. destruct (Nat.lt_ge_cases (R i p) s) as [Z|Z].
              ** destruct ((v_start s i <=? p) && (p <? v_end e i)) eqn:V; [apply VR in V; lia|]. rewrite RB by exact Z. apply C2; assumption.
              ** rewrite (proj2 (VR p Hp)) by lia. rewrite C5 by assumption. apply IA. lia.
           ++ intros S p Hp Hr. destruct (Nat.lt_ge_cases (R i p) s) as [Z|Z].
              ** destruct ((v_start s i <=? p) && (p <? v_end e i)) eqn:V; [apply VR in V; lia|]. apply C4; assumption.
              ** rewrite (proj2 (VR p Hp)) by lia. congruence.
           ++ intros p Hp Hr. apply C5; [exact Hp|lia].
      * cbn [chunk_ok] in C1.
        destruct (put_one m1 i (Some (Vec (v_append new_vinfo (v_start s i) (v_end e i) t))) (chunk_ok a' i) Hl) as (m2 & -> & H1 & H2 & H3); [|exists m2; auto].
        cbn [chunk_ok]. unfold v_append, new_vinfo. cbn [inserted insert_id same_inserted deleted any_deleted]. rewrite TA, LA.
        assert (J : forall p, p < CAP -> R i p < e -> rep_ins (low a) (fill (fun _ => 0%N) (v_start s i) (v_end e i) t p) (a_ins (row a' (R i p))) /\
                      NOT_DELETED_ID = del_id (a_del (row a' (R i p)))).
        { intros p Hp Hr. unfold fill. destruct (Nat.lt_ge_cases (R i p) s) as [Z|Z].
          - destruct ((v_start s i <=? p) && (p <? v_end e i)) eqn:V; [apply VR in V; lia|]. rewrite RB by exact Z.
            destruct (C1 p Hp Z) as [O D]. rewrite D. split; [right; split; [exact O|apply N.le_0_l]|reflexivity].
          - rewrite (proj2 (VR p Hp)) by lia. apply IA. lia. }
        destruct (v_start s i =? 0) eqn:VS.
        -- cbn [inserted insert_id same_inserted deleted any_deleted]. csplit; [dlia|exact J|reflexivity| |reflexivity].
           intros _ p Hp Hr. unfold fill. rewrite (proj2 (VR p Hp)); [reflexivity|]. unfold v_start in VS. 
           destruct (i =? s / CAP) eqn:E1; dlia.
        -- assert (Z : negb (0 =? t)%N = true) by (unfold running_id, TRANSACTION_ID_START in Ht; lia). rewrite Z.
           cbn [inserted insert_id same_inserted deleted any_deleted]. csplit; [dlia|exact J|reflexivity|discriminate|reflexivity].
  - intros j. rewrite get_fill. apply C.
  - intros j o Hj. assert (j < s / CAP \/ (e - 1) / CAP < j) as Hj' by lia. clear Hj.
    destruct o as [[id d|v]|]; cbn [chunk_ok]; rewrite TA, LA; fold s.
    + intros (H1 & -> & H3). csplit; [lia|reflexivity|]. intros p Hp. rewrite RB by lia. apply H3, Hp.
    + intros (H1 & H2 & H3 & H4 & H5). assert (j < s / CAP) by dlia. csplit; [dlia| |exact H3| |].
      * intros p Hp Hr. rewrite RB by dlia. apply H2; [exact Hp|dlia].
      * intros S p Hp Hr. apply H4; [exact S|exact Hp|dlia].
      * intros p Hp Hr. apply H5; [exact Hp|lia].
    + intros H p Hp Hr. assert (j < s / CAP) by dlia. rewrite RB by dlia. apply H; [exact Hp|dlia].
  - exists m'. split; [exact E|]. split; [exact C'|]. split; [|exact T].
    intros r Hr. rewrite TA in Hr. destruct (Nat.lt_ge_cases r s) as [Z|Z].
    + rewrite RB by exact Z. apply W. exact Z.
    + rewrite RA by lia. split; [exact Ht|exact I].
Qed.

Lemma rep_running l id w t : time_ok l -> running_id t -> who_ok w -> rep_ins l id w -> id = t -> w = Running t.
Proof.
  intros T Ht W [E|[O Hl]] ->.
  - destruct w as [t'|c]; cbn [id_of] in E; [congruence|]. cbn [who_ok] in W. unfold running_id, time_ok in *. lia.
  - unfold running_id, time_ok in *. lia.
Qed.
Lemma rep_of_running l id t : rep_ins l id (Running t) -> id = t.
Proof. intros [E|[(c & E & _) _]]; [exact E|discriminate]. Qed.
Lemma in_some s e i : s < e -> s / CAP <= i <= (e - 1) / CAP -> exists p, p < CAP /\ s <= R i p < e.
Proof.
  intros H Hi. destruct (Nat.eq_dec i (s / CAP)) as [->|N].
  - exists (s - s / CAP * CAP). dlia.
  - exists 0. dlia.
Qed.
Lemma v_start0 s i : s / CAP <= i -> s <= i * CAP -> v_start s i = 0.
Proof. intros H1 H2. unfold v_start.  destruct (i =? s / CAP) eqn:E; lia. Qed.
Lemma v_end_full e i : 0 < e -> i <= (e - 1) / CAP -> (v_end e i = CAP <-> (i + 1) * CAP <= e).
Proof. intros H1 H2. unfold v_end.  destruct (i =? (e - 1) / CAP) eqn:E; dlia. Qed.

Lemma commit_step a m c s n : Inv a m -> legal a (CommitAppend c s n) ->
  exists m', mstep a m (CommitAppend c s n) = Ok m' /\ Inv (astep a (CommitAppend c s n)) m'.
Proof.
  intros (C & W & T) (Hn & Hc & Hs & t & H1 & H2). cbn [mstep]. unfold commit_append. apply Nat.eqb_neq in Hn. rewrite Hn. apply Nat.eqb_neq in Hn.
  cbv zeta.  set (a' := astep a (CommitAppend c s n)). set (e := s + n) in *.
  assert (se : s < e) by (unfold e; lia).
  assert (RA : forall r, s <= r < e -> row a' r = ins_by (Committed c) (row a r)).
  { intros r Hr. unfold a'. cbn [astep row]. unfold set_rows. fold e. destruct ((s <=? r) && (r <? e)) eqn:E; [reflexivity|lia]. }
  assert (RB : forall r, ~ (s <= r < e) -> row a' r = row a r).
  { intros r Hr. unfold a'. cbn [astep row]. unfold set_rows. fold e. destruct ((s <=? r) && (r <? e)) eqn:E; [lia|reflexivity]. }
  assert (RD : forall r, a_del (row a' r) = a_del (row a r)).
  { intros r. unfold a'. cbn [astep row]. unfold set_rows. destruct (_ && _); reflexivity. }
  assert (TA : total a' = total a) by reflexivity. assert (LA : low a' = low a) by reflexivity.
  assert (Ht : running_id t). { destruct (W s ltac:(lia)) as [W1 _]. rewrite (H1 s ltac:(lia)) in W1. exact W1. }
  assert (H3 : forall r id, r < total a -> rep_ins (low a) id (a_ins (row a r)) -> id = t -> s <= r < e).
  { intros r id Hr RI E. apply H2; [exact Hr|]. destruct (W r Hr) as [W1 _]. exact (rep_running _ _ _ _ T Ht W1 RI E). }
  destruct (vloop_ok a a' (fun m i => commit_one m c s e i) (S ((e - 1) / CAP) - s / CAP) (s / CAP) m) as (m' & E & C').
  - intros m1 i Hi L1 C1. assert (Hi' : s / CAP <= i <= (e - 1) / CAP) by lia.
    pose proof (fun p => v_range s e i p se Hi') as VR.
    destruct (in_some s e i se Hi') as (q & Hq & Rq). unfold commit_one. rewrite <- L1.
    destruct (get_chunk m1 i) as [[id d|v]|] eqn:G.
    + pose proof (get_lt _ _ _ G) as Hl. cbn [chunk_ok] in C1. destruct C1 as (C1 & -> & C3).
      destruct (C3 q Hq) as [I0 _]. rewrite (H1 _ Rq) in I0. apply rep_of_running in I0.
      assert (A : forall p, p < CAP -> s <= R i p < e).
      { intros p Hp. destruct (C3 p Hp) as [I1 _]. apply (H3 _ id); [lia|exact I1|exact I0]. }
      pose proof (A 0 ltac:(lia)). pose proof (A (CAP - 1) ltac:(lia)). cbn [c_commit_append].
      rewrite (v_start0 s i) by lia. rewrite (proj2 (v_end_full e i ltac:(lia) ltac:(lia))) by lia. rewrite !Nat.eqb_refl. cbn [andb]. cbn [rbind].
      destruct (put_one m1 i (Some (Const c NOT_DELETED_ID)) (chunk_ok a' i) Hl) as (m2 & -> & P1 & P2 & P3); [|exists m2; auto].
      cbn [chunk_ok]. rewrite TA, LA. csplit; [exact C1|reflexivity|]. intros p Hp. rewrite RD. rewrite RA by (apply A; exact Hp). cbn [ins_by a_ins].
      split; [left; reflexivity|apply C3; exact Hp].
    + pose proof (get_lt _ _ _ G) as Hl. cbn [chunk_ok] in C1. destruct C1 as (C1 & C2 & C3 & C4 & C5). cbn [c_commit_append rbind].
      destruct (put_one m1 i (Some (Vec {| inserted := fill (inserted v) (v_start s i) (v_end e i) c; insert_id := if same_inserted v then c else insert_id v;
                        same_inserted := same_inserted v; deleted := deleted v; any_deleted := any_deleted v |})) (chunk_ok a' i) Hl) as (m2 & -> & P1 & P2 & P3); [|exists m2; auto].
      cbn [chunk_ok inserted insert_id same_inserted deleted any_deleted]. rewrite TA, LA. csplit; [exact C1| |exact C3| |exact C5].
      * intros p Hp Hr. rewrite RD. destruct (C2 p Hp Hr) as [I1 D1]. split; [|exact D1]. unfold fill.
        destruct ((v_start s i <=? p) && (p <? v_end e i)) eqn:V.
        -- apply VR in V; [|exact Hp]. rewrite RA by exact V. left. reflexivity.
        -- rewrite RB; [exact I1|]. intros K. apply (VR p Hp) in K. congruence.
      * intros S p Hp Hr. rewrite S. unfold fill. rewrite (proj2 (VR p Hp)); [reflexivity|].
        apply (H3 _ (inserted v p)); [exact Hr|apply C2; assumption|].
        rewrite (C4 S p Hp Hr), <- (C4 S q Hq ltac:(lia)). destruct (C2 q Hq ltac:(lia)) as [I0 _]. rewrite (H1 _ Rq) in I0. apply rep_of_running in I0. exact I0.
    + cbn [chunk_ok] in C1. destruct (C1 q Hq ltac:(lia)) as [(x & E & _) _]. rewrite (H1 _ Rq) in E. discriminate.
  - exact C.
  - intros j o Hj. assert (RR : forall p, p < CAP -> row a' (R j p) = row a (R j p)) by (intros p Hp; apply RB; dlia).
    destruct o as [[id d|v]|]; cbn [chunk_ok]; rewrite TA, LA.
    + intros (K1 & -> & K3). csplit; [exact K1|reflexivity|]. intros p Hp. rewrite RR by exact Hp. apply K3, Hp.
    + intros (K1 & K2 & K3 & K4 & K5). csplit; [exact K1| |exact K3|exact K4|exact K5]. intros p Hp Hr. rewrite RR by exact Hp. apply K2; assumption.
    + intros K p Hp Hr. rewrite RR by exact Hp. apply K; assumption.
  - exists m'. split; [exact E|]. split; [exact C'|]. split; [|exact T]. intros r Hr. rewrite TA in Hr. rewrite RD. destruct (W r Hr) as [W1 W2]. split; [|exact W2].
    unfold a'. cbn [astep row]. unfold set_rows. destruct (_ && _); [exact Hc|exact W1].
Qed.

Lemma get_revert m s j : get_chunk (revert_append m s) j = if j <? (s + (CAP - 1)) / CAP then get_chunk m j else None.
Proof.
  unfold revert_append, get_chunk.   set (k := (s + (CAP - 1)) / CAP).
  destruct (Nat.lt_ge_cases j (length (firstn k m))) as [H|H].
  - rewrite nth_error_app1 by exact H. rewrite firstn_length in H. destruct (j <? k) eqn:E; [|lia].
    rewrite <- (firstn_skipn k m) at 2. rewrite nth_error_app1 by (rewrite firstn_length; lia). reflexivity.
  - rewrite nth_error_app2 by exact H. rewrite firstn_length in H.
    assert (X : match nth_error (repeat (@None chunk) (length m - k)) (j - length (firstn k m)) with Some o => o | None => None end = None).
    { destruct (nth_error (repeat None (length m - k)) _) as [o|] eqn:E; [|reflexivity]. apply nth_error_In, repeat_spec in E. exact E. }
    rewrite X. destruct (j <? k) eqn:E; [|reflexivity]. rewrite (proj2 (nth_error_None m j)) by lia. reflexivity.
Qed.
Lemma revert_step a m s : Inv a m -> legal a (Revert s) ->
  exists m', mstep a m (Revert s) = Ok m' /\ Inv (astep a (Revert s)) m'.
Proof.
  intros (C & W & T) (Hs & t & H1 & H2). cbn [mstep]. eexists. split; [reflexivity|]. split; [|split; [|exact T]].
  2:{ intros r Hr. cbn [astep total row] in *. apply W. lia. }
  intros j. rewrite get_revert. specialize (C j). destruct (j <? (s + (CAP - 1)) / CAP) eqn:K.
  2:{ cbn [chunk_ok astep total low row]. intros p Hp Hr. dlia. }
  assert (Kj : j * CAP < s) by dlia. pose proof CAP_big as CB.
  destruct (get_chunk m j) as [[id d|v]|]; cbn [chunk_ok astep total low row] in *.
  - destruct C as (C1 & -> & C3). csplit; [|reflexivity|exact C3].
    destruct (Nat.le_gt_cases ((j + 1) * CAP) s) as [L|L]; [exact L|exfalso].
    destruct (C3 (s - j * CAP) ltac:(lia)) as [I1 _]. replace (R j (s - j * CAP)) with s in I1 by lia.
    destruct (H1 s ltac:(lia)) as [E _]. rewrite E in I1. apply rep_of_running in I1.
    destruct (W s ltac:(lia)) as [Wt _]. rewrite E in Wt. destruct (C3 0 ltac:(lia)) as [I0 _]. destruct (W (R j 0) ltac:(lia)) as [W0 _].
    apply (H2 (R j 0) ltac:(lia)). exact (rep_running _ _ _ _ T Wt W0 I0 I1).
  - destruct C as (C1 & C2 & C3 & C4 & C5). csplit; [lia| |exact C3| |].
    + intros p Hp Hr. apply C2; [exact Hp|lia].
    + intros S p Hp Hr. apply C4; [exact S|exact Hp|lia].
    + intros p Hp Hr. destruct (Nat.lt_ge_cases (R j p) (total a)) as [L|L].
      * destruct (C2 p Hp L) as [_ ->]. destruct (H1 (R j p) ltac:(lia)) as [_ ->]. reflexivity.
      * apply C5; assumption.
  - intros p Hp Hr. apply C; [exact Hp|lia].
Qed.

Lemma as_vector_ok a i o : chunk_ok a i o -> i * CAP < total a -> chunk_ok a i (Some (Vec (as_vector o))).
Proof.
  intros C H. destruct o as [[id d|v]|]; cbn [as_vector]; [|exact C|]; cbn [chunk_ok inserted insert_id same_inserted deleted any_deleted new_vinfo] in *.
  - destruct C as (C1 & -> & C3). csplit; auto. intros p Hp Hr. destruct (C3 p Hp) as [I1 D]. rewrite D. auto.
  - csplit; auto. intros p Hp Hr. destruct (C p Hp Hr) as [I1 D]. rewrite D. split; [right; split; [exact I1|apply N.le_0_l]|reflexivity].
Qed.

Lemma fill_one d r x p : fill d r (S r) x p = if p =? r then x else d p.
Proof. unfold fill. destruct ((r <=? p) && (p <? S r)) eqn:E; destruct (p =? r) eqn:F; try reflexivity; lia. Qed.
Lemma count_one (f g : nat -> bool) r l : NoDup l -> In r l -> f r = true -> g r = false -> (forall x, x <> r -> f x = g x) ->
  length (filter f l) = S (length (filter g l)).
Proof.
  intros N I F G E. induction l as [|x l IH]; [contradiction|]. inversion N as [|? ? Nx Nl]; subst. cbn [filter]. destruct (Nat.eq_dec x r) as [->|D].
  - rewrite F, G. cbn [length]. f_equal. f_equal. apply filter_eq. intros y Hy. apply E. intros ->. contradiction.
  - destruct I as [->|I]; [contradiction|]. rewrite (E x D). destruct (g x); cbn [length]; rewrite IH; auto.
Qed.
Lemma delete_loop_ok t : (t < NOT_DELETED_ID)%N -> forall rows d n,
  (forall p, In p rows -> p < CAP /\ (d p = NOT_DELETED_ID \/ d p = t)) ->
  exists d', delete_loop t rows d n = (d', Some (n + length (filter (fun p => existsb (Nat.eqb p) rows && (d p =? NOT_DELETED_ID)%N) (seq 0 CAP)))) /\
             forall p, d' p = if existsb (Nat.eqb p) rows then t else d p.
Proof.
  intros Ht. induction rows as [|r rs IH]; intros d n H; cbn [delete_loop existsb].
  - exists d. split; [|reflexivity]. rewrite filter_none by reflexivity. cbn [length]. rewrite Nat.add_0_r. reflexivity.
  - destruct (H r (or_introl eq_refl)) as [Hr Hd]. destruct (d r =? t)%N eqn:E.
    + apply N.eqb_eq in E. destruct (IH d n) as (d' & E1 & E2); [intros p Hp; apply H; right; exact Hp|].
      exists d'. split.
      * rewrite E1. f_equal. f_equal. f_equal. f_equal. apply filter_eq. intros p _. destruct (p =? r) eqn:F; [|reflexivity].
        apply Nat.eqb_eq in F. subst p. cbn [orb]. assert (Z : (d r =? NOT_DELETED_ID)%N = false) by (rewrite E; lia). rewrite Z. rewrite andb_false_r. reflexivity.
      * intros p. rewrite E2. destruct (p =? r) eqn:F; [|reflexivity]. apply Nat.eqb_eq in F. subst p. cbn [orb]. destruct (existsb _ _); congruence.
    + assert (E' : d r = NOT_DELETED_ID) by (destruct Hd as [Hd|Hd]; [exact Hd|lia]). rewrite E', N.eqb_refl. cbn [negb].
      destruct (IH (fill d r (S r) t) (S n)) as (d' & E1 & E2).
      { intros p Hp. destruct (H p (or_intror Hp)) as [P1 P2]. split; [exact P1|]. rewrite fill_one. destruct (p =? r); [right; reflexivity|exact P2]. }
      exists d'. split.
      * rewrite E1. f_equal. f_equal. rewrite Nat.add_succ_comm. f_equal.
        set (g := fun p => existsb (Nat.eqb p) rs && (fill d r (S r) t p =? NOT_DELETED_ID)%N).
        symmetry. rewrite (count_one _ g r).
        -- reflexivity.
        -- apply seq_NoDup.
        -- apply in_seq. lia.
        -- cbn beta. rewrite Nat.eqb_refl, E', N.eqb_refl. reflexivity.
        -- unfold g. rewrite fill_one, Nat.eqb_refl. replace (t =? NOT_DELETED_ID)%N with false by lia. apply andb_false_r.
        -- intros x Hx. unfold g. rewrite fill_one. apply Nat.eqb_neq in Hx. rewrite Hx. reflexivity.
      * intros p. rewrite E2, fill_one. destruct (p =? r); cbn [orb]; [destruct (existsb _ _); reflexivity|reflexivity].
Qed.
Lemma fold_fill c : forall rows d p, fold_left (fun d r => fill d r (S r) c) rows d p = if existsb (Nat.eqb p) rows then c else d p.
Proof.
  induction rows as [|r rs IH]; intros d p; cbn [fold_left existsb]; [reflexivity|]. rewrite IH, fill_one.
  destruct (p =? r); cbn [orb]; [destruct (existsb _ _); reflexivity|reflexivity].
Qed.
Lemma quot_R i p : p < CAP -> R i p / CAP = i.
Proof. intros H. pose proof CAP_big. rewrite Nat.div_add_l by lia. rewrite Nat.div_small by exact H. lia. Qed.
Lemma rem_R i p : p < CAP -> R i p mod CAP = p.
Proof. intros H. pose proof CAP_big. rewrite Nat.add_comm, Nat.mod_add by lia. apply Nat.mod_small, H. Qed.
Lemma in_vec i rows p : p < CAP -> in_vector i rows (R i p) = existsb (Nat.eqb p) rows.
Proof.
  intros H. unfold in_vector. rewrite (quot_R i p H), (rem_R i p H), Nat.eqb_refl. reflexivity.
Qed.
Lemma in_vec_other i j rows p : p < CAP -> j <> i -> in_vector i rows (R j p) = false.
Proof. intros H N. unfold in_vector. rewrite (quot_R j p H). apply Nat.eqb_neq in N. rewrite N. reflexivity. Qed.
Lemma existsb_in p rows : existsb (Nat.eqb p) rows = true <-> In p rows.
Proof.
  rewrite existsb_exists. split.
  - intros (x & H & E). apply Nat.eqb_eq in E. subst. exact H.
  - intros H. exists p. split; [exact H|apply Nat.eqb_refl].
Qed.
Lemma rows_small a i rows (P : nat -> Prop) : (forall p, In p rows -> p < CAP /\ i * CAP + p < total a /\ P p) -> forallb (fun r => r <? CAP) rows = true.
Proof. intros H. apply forallb_forall. intros p Hp. destruct (H p Hp) as (L & _).  lia. Qed.

(** the vector [i] gets the new info and all rows change by [f] on the listed ones *)
Lemma mark_inv a m i rows w v :
  Inv a m -> who_ok w -> (forall p, In p rows -> R i p < total a) ->
  chunk_ok {| total := total a; low := low a; row := set_rows (row a) (in_vector i rows) (del_by w) |} i (Some (Vec v)) ->
  Inv {| total := total a; low := low a; row := set_rows (row a) (in_vector i rows) (del_by w) |} (put (fill_info m i) i (Some (Vec v))).
Proof.
  intros (C & W & T) Hw Hr Hv. split; [|split; [|exact T]].
  - intros j. rewrite get_put by apply fill_length. rewrite get_fill. destruct (j =? i) eqn:E; [apply Nat.eqb_eq in E; subst j; exact Hv|].
    apply Nat.eqb_neq in E. specialize (C j).
    assert (RR : forall p, p < CAP -> set_rows (row a) (in_vector i rows) (del_by w) (R j p) = row a (R j p)).
    { intros p Hp. unfold set_rows. rewrite in_vec_other by assumption. reflexivity. }
    destruct (get_chunk m j) as [[id d|u]|]; cbn [chunk_ok total low row] in *.
    + destruct C as (K1 & -> & K3). csplit; [exact K1|reflexivity|]. intros p Hp. rewrite RR by exact Hp. apply K3, Hp.
    + destruct C as (K1 & K2 & K3 & K4 & K5). csplit; [exact K1| |exact K3|exact K4|exact K5]. intros p Hp Hq. rewrite RR by exact Hp. apply K2; assumption.
    + intros p Hp Hq. rewrite RR by exact Hp. apply C; assumption.
  - intros r L. cbn [total row] in *. unfold set_rows. destruct (W r L) as [W1 W2]. destruct (in_vector i rows r); [split; [exact W1|exact Hw]|split; assumption].
Qed.

Lemma delete_count_gen a m i t rows : Inv a m -> legal a (Delete i t rows) ->
  exists m', delete_rows m i t rows = Ok (m', Some (length (filter (fun p => existsb (Nat.eqb p) rows && match a_del (row a (R i p)) with None => true | _ => false end) (seq 0 CAP)))) /\
    Inv (astep a (Delete i t rows)) m'.
Proof.
  intros IV (Hne & Ht & H). pose proof IV as (C & W & T). unfold delete_rows. rewrite (rows_small a i rows _ H). rewrite get_fill.
  assert (Hi : i * CAP < total a). { destruct rows as [|r rs]; [congruence|]. destruct (H r (or_introl eq_refl)) as (_ & L & _). lia. }
  pose proof (as_vector_ok a i _ (C i) Hi) as V. set (v := as_vector (get_chunk m i)) in *. clearbody v.
  cbn [chunk_ok] in V. destruct V as (C1 & C2 & C3 & C4 & C5). unfold v_delete.
  destruct (delete_loop_ok t (proj2 Ht) rows (deleted v) 0) as (d' & E1 & E2).
  { intros p Hp. destruct (H p Hp) as (P1 & P2 & P3). split; [exact P1|]. destruct (C2 p P1 P2) as [_ ->]. destruct P3 as [->| ->]; [left|right]; reflexivity. }
  assert (CT : filter (fun p => existsb (Nat.eqb p) rows && (deleted v p =? NOT_DELETED_ID)%N) (seq 0 CAP) =
               filter (fun p => existsb (Nat.eqb p) rows && match a_del (row a (R i p)) with None => true | _ => false end) (seq 0 CAP)).
  { apply filter_eq. intros p Hp. apply in_seq in Hp. destruct (existsb (Nat.eqb p) rows) eqn:X; [|reflexivity]. cbn [andb].
    apply existsb_in in X. destruct (H p X) as (P1 & P2 & P3). destruct (C2 p P1 P2) as [_ ->]. destruct P3 as [->| ->]; cbn [del_id id_of]; [apply N.eqb_refl|].
    destruct Ht. lia. }
  rewrite E1, CT. rewrite Nat.add_0_l. eexists. split.
  - reflexivity.
  - cbn [astep]. apply mark_inv; [exact IV|exact Ht|intros p Hp; apply H; exact Hp|].
    cbn [chunk_ok total low row inserted insert_id same_inserted deleted any_deleted]. csplit; [exact C1| |discriminate|exact C4|].
    + intros p Hp Hr. destruct (C2 p Hp Hr) as [I1 D1]. unfold set_rows. rewrite in_vec by exact Hp. rewrite E2.
      destruct (existsb (Nat.eqb p) rows); [split; [exact I1|reflexivity]|split; assumption].
    + intros p Hp Hr. rewrite E2. destruct (existsb (Nat.eqb p) rows) eqn:X; [|apply C5; assumption]. apply existsb_in in X. destruct (H p X) as (_ & P2 & _). lia.
Qed.
Lemma delete_step a m i t rows : Inv a m -> legal a (Delete i t rows) ->
  exists m', mstep a m (Delete i t rows) = Ok m' /\ Inv (astep a (Delete i t rows)) m'.
Proof. intros IV L. destruct (delete_count_gen a m i t rows IV L) as (m' & E & IV'). exists m'. cbn [mstep]. rewrite E. split; [reflexivity|exact IV']. Qed.

Lemma commit_delete_step a m i c rows : Inv a m -> legal a (CommitDelete i c rows) ->
  exists m', mstep a m (CommitDelete i c rows) = Ok m' /\ Inv (astep a (CommitDelete i c rows)) m'.
Proof.
  intros IV (Hne & Hc & H). pose proof IV as (C & W & T). cbn [mstep]. unfold commit_delete. rewrite (rows_small a i rows _ H). rewrite get_fill.
  assert (Hi : i * CAP < total a). { destruct rows as [|r rs]; [congruence|]. destruct (H r (or_introl eq_refl)) as (_ & L & _). lia. }
  pose proof (as_vector_ok a i _ (C i) Hi) as V. set (v := as_vector (get_chunk m i)) in *. clearbody v.
  cbn [chunk_ok] in V. destruct V as (C1 & C2 & C3 & C4 & C5). eexists. split; [reflexivity|].
  cbn [astep]. apply mark_inv; [exact IV|exact Hc|intros p Hp; apply H; exact Hp|].
  cbn [chunk_ok total low row v_commit_delete inserted insert_id same_inserted deleted any_deleted]. csplit; [exact C1| | |exact C4|].
  - intros p Hp Hr. destruct (C2 p Hp Hr) as [I1 D1]. unfold set_rows. rewrite in_vec by exact Hp. rewrite fold_fill.
    destruct (existsb (Nat.eqb p) rows); [split; [exact I1|reflexivity]|split; assumption].
  - intros A. exfalso. destruct rows as [|r rs]; [congruence|]. destruct (H r (or_introl eq_refl)) as (P1 & P2 & t & P3).
    destruct (C2 r P1 P2) as [_ D]. rewrite (C3 A r P1), P3 in D. cbn [del_id id_of] in D. destruct (W _ P2) as [_ W2]. rewrite P3 in W2. cbn [who_ok] in W2. destruct W2. lia.
  - intros p Hp Hr. rewrite fold_fill. destruct (existsb (Nat.eqb p) rows) eqn:X; [|apply C5; assumption]. apply existsb_in in X. destruct (H p X) as (_ & P2 & _). lia.
Qed.

Lemma old_mono l l' w : (l <= l')%N -> old l w -> old l' w.
Proof. intros H (c & -> & Hc). exists c. split; [reflexivity|lia]. Qed.
Lemma rep_mono l l' id w : (l <= l')%N -> rep_ins l id w -> rep_ins l' id w.
Proof. intros H [E|[O Hi]]; [left; exact E|right; split; [exact (old_mono _ _ _ H O)|lia]]. Qed.
Lemma rep_old l l' id w : (l <= l')%N -> time_ok l' -> who_ok w -> rep_ins l id w -> (id <= l')%N -> old l' w.
Proof.
  intros H T W [E|[O Hi]] L.
  - destruct w as [t|c]; cbn [id_of who_ok] in *; [unfold running_id, time_ok in *; lia|]. exists c. split; [reflexivity|lia].
  - exact (old_mono _ _ _ H O).
Qed.
Lemma chunk_mono a l j o : (low a <= l)%N -> chunk_ok a j o -> chunk_ok {| total := total a; row := row a; low := l |} j o.
Proof.
  intros H C. destruct o as [[id d|v]|]; cbn [chunk_ok total low row] in *.
  - destruct C as (K1 & K2 & K3). csplit; [exact K1|exact K2|]. intros p Hp. destruct (K3 p Hp). split; [eapply rep_mono; eassumption|assumption].
  - destruct C as (K1 & K2 & K3 & K4 & K5). csplit; [exact K1| |exact K3|exact K4|exact K5]. intros p Hp Hq. destruct (K2 p Hp Hq). split; [eapply rep_mono; eassumption|assumption].
  - intros p Hp Hq. destruct (C p Hp Hq). split; [eapply old_mono; eassumption|assumption].
Qed.
Lemma del_none a r : rows_ok a -> r < total a -> NOT_DELETED_ID = del_id (a_del (row a r)) -> a_del (row a r) = None.
Proof.
  intros W H E. destruct (W r H) as [_ W2]. destruct (a_del (row a r)) as [[t|c]|]; [| |reflexivity]; exfalso; cbn [del_id id_of who_ok] in *.
  - destruct W2. lia.
  - unfold time_ok, TRANSACTION_ID_START in W2. change NOT_DELETED_ID with 18446744073709551614%N in E. lia.
Qed.
Lemma cleanup_step a m l s n : Inv a m -> legal a (Cleanup l s n) ->
  exists m', mstep a m (Cleanup l s n) = Ok m' /\ Inv (astep a (Cleanup l s n)) m'.
Proof.
  intros (C & W & T) (Hl & Hl' & Hs & G). cbn [mstep astep]. unfold cleanup_append. rewrite N.max_r by exact Hl.
  set (a' := {| total := total a; row := row a; low := l |}).
  destruct (n =? 0) eqn:Z.
  - exists m. split; [reflexivity|]. split; [intros j; apply chunk_mono; auto|]. split; assumption.
  - cbv zeta.  set (e := s + n) in *.
    destruct (vloop_ok a a' (fun m i => cleanup_one m l e i) (S ((e - 1) / CAP) - s / CAP) (s / CAP) m) as (m' & E & C').
    + intros m1 i Hi L1 C1. unfold cleanup_one. 
      assert (K : exists m', Ok m1 = Ok m' /\ chunk_ok a' i (get_chunk m' i) /\ length m' = length m /\ forall j, j <> i -> get_chunk m' j = get_chunk m1 j).
      { exists m1. csplit; auto. apply chunk_mono; assumption. }
      destruct (negb (v_end e i =? CAP)) eqn:VE; [exact K|].
      assert (F : (i + 1) * CAP <= e) by (apply v_end_full; lia).
      specialize (G i ltac:(lia) F).
      destruct (get_chunk m1 i) as [c|] eqn:GC; [|exact K]. pose proof (get_lt _ _ _ GC) as HL.
      destruct (c_cleanup c l) eqn:CC; [|exact K].
      destruct (put_one m1 i None (chunk_ok a' i) HL) as (m2 & -> & P1 & P2 & P3); [|exists m2; rewrite <- L1; auto].
      cbn [chunk_ok]. intros p Hp Hr. cbn [a' total low row] in *. destruct (W _ Hr) as [W1 _].
      destruct c as [id d|v]; cbn [chunk_ok c_cleanup] in *.
      * destruct C1 as (K1 & _ & K3). destruct (K3 p Hp) as [I1 D]. split; [|exact D]. apply (rep_old (low a) l id); auto. lia.
      * destruct C1 as (C1 & C2 & C3 & C4 & C5). destruct (any_deleted v); [discriminate|]. destruct (C2 p Hp Hr) as [I1 D].
        rewrite (C3 eq_refl p Hp) in D. split; [|apply del_none; assumption].
        destruct (same_inserted v) eqn:SI; cbn [negb] in CC.
        -- apply (rep_old (low a) l (inserted v p)); auto. rewrite (C4 eq_refl p Hp Hr). lia.
        -- rewrite forallb_forall in CC.
           assert (O : forall q, 0 < q < CAP -> old l (a_ins (row a (R i q)))).
           { intros q Hq. destruct (C2 q ltac:(lia) ltac:(lia)) as [I2 _]. destruct (W (R i q) ltac:(lia)) as [W2 _]. apply (rep_old (low a) l (inserted v q)); auto.
             specialize (CC q). rewrite in_seq in CC.  specialize (CC ltac:(lia)). lia. }
           destruct (Nat.eq_dec p 0) as [->|N]; [|apply O; lia]. rewrite Nat.add_0_r. destruct G as [G|(q & Hq & G)]; [exact G|exfalso; apply G, O, Hq].
    + exact C.
    + intros j o _. apply chunk_mono. exact Hl.
    + exists m'. split; [exact E|]. split; [exact C'|]. split; assumption.
Qed.

Lemma step_ok a m o : Inv a m -> legal a o -> exists m', mstep a m o = Ok m' /\ Inv (astep a o) m'.
Proof.
  destruct o; intros IV L.
  - apply append_step; assumption.
  - apply commit_step; assumption.
  - apply revert_step; assumption.
  - apply delete_step; assumption.
  - apply commit_delete_step; assumption.
  - apply cleanup_step; assumption.
Qed.
Lemma run_ok : forall ops a m, Inv a m -> legal_all a ops -> exists m', mrun a m ops = Ok m' /\ Inv (arun a ops) m'.
Proof.
  induction ops as [|o ops IH]; intros a m IV L; cbn [mrun legal_all] in *.
  - exists m. split; [reflexivity|exact IV].
  - destruct L as [L1 L2]. destruct (step_ok a m o IV L1) as (m1 & -> & IV1). cbn [rbind]. exact (IH _ _ IV1 L2).
Qed.
Lemma inv0 n : Inv (a0 n) [].
Proof.
  split; [|split].
  - intros i. unfold get_chunk. rewrite (proj2 (nth_error_None [] i)) by (cbn; lia). cbn. intros p _ _. split; [exists 0%N; split; [reflexivity|lia]|reflexivity].
  - intros r _. cbn. split; [unfold time_ok, TRANSACTION_ID_START; lia|exact I].
  - cbn. unfold time_ok, TRANSACTION_ID_START. lia.
Qed.

(** ** Conflicts *)
Lemma delete_loop_conflict t : (t < NOT_DELETED_ID)%N -> forall rows d n p, In p rows -> d p <> t -> d p <> NOT_DELETED_ID -> snd (delete_loop t rows d n) = None.
Proof.
  intros Ht. induction rows as [|r rs IH]; intros d n p Hp H1 H2; [contradiction|]. cbn [delete_loop].
  destruct (d r =? t)%N eqn:E.
  - apply N.eqb_eq in E. destruct Hp as [->|Hp]; [contradiction|]. apply (IH d n p); assumption.
  - destruct (d r =? NOT_DELETED_ID)%N eqn:F; cbn [negb]; [|reflexivity]. apply N.eqb_eq in F. destruct Hp as [->|Hp]; [contradiction|].
    apply (IH _ _ p); [exact Hp| |]; rewrite fill_one; (destruct (p =? r) eqn:G; [apply Nat.eqb_eq in G; subst; contradiction|assumption]).
Qed.
Lemma delete_loop_keeps t : forall rows d n p, ~ In p rows -> fst (delete_loop t rows d n) p = d p.
Proof.
  induction rows as [|r rs IH]; intros d n p Hp; [reflexivity|]. cbn [delete_loop].
  assert (Hp' : ~ In p rs) by (intros X; apply Hp; right; exact X). assert (Hr : p <> r) by (intros ->; apply Hp; left; reflexivity).
  destruct (d r =? t)%N; [apply IH; exact Hp'|]. destruct (negb _); [reflexivity|]. rewrite IH by exact Hp'. rewrite fill_one. apply Nat.eqb_neq in Hr. rewrite Hr. reflexivity.
Qed.

Lemma conflict_gen a m i t rows p w : Inv a m -> running_id t -> (forall q, In q rows -> q < CAP /\ R i q < total a) ->
  In p rows -> a_del (row a (R i p)) = Some w -> w <> Running t ->
  exists m', delete_rows m i t rows = Ok (m', None) /\
    forall x r, txn_ok a x -> r < total a -> in_vector i rows r = false -> fetch x m' r = visible x (row a r).
Proof.
  intros IV Ht Hr Hp Hd Hw. pose proof IV as (C & W & T). pose proof CAP_big as CB.
  unfold delete_rows. rewrite (rows_small a i rows (fun _ => True)) by (intros q Hq; destruct (Hr q Hq); auto). rewrite get_fill.
  assert (Hi : i * CAP < total a) by (destruct (Hr p Hp); lia).
  pose proof (as_vector_ok a i _ (C i) Hi) as V. set (v := as_vector (get_chunk m i)) in *. clearbody v.
  cbn [chunk_ok] in V. destruct V as (C1 & C2 & C3 & C4 & C5). unfold v_delete.
  destruct (Hr p Hp) as [P1 P2]. destruct (C2 p P1 P2) as [_ D]. rewrite Hd in D. cbn [del_id] in D. destruct (W _ P2) as [_ W2]. rewrite Hd in W2.
  pose proof (delete_loop_conflict t (proj2 Ht) rows (deleted v) 0 p Hp) as X.
  assert (X1 : deleted v p <> t).
  { rewrite D. destruct w as [t'|c]; cbn [id_of who_ok] in *; [congruence|]. unfold running_id, time_ok in *. lia. }
  assert (X2 : deleted v p <> NOT_DELETED_ID).
  { rewrite D. destruct w as [t'|c]; cbn [id_of who_ok] in *; [destruct W2; lia|]. unfold time_ok, TRANSACTION_ID_START in W2. change NOT_DELETED_ID with 18446744073709551614%N. lia. }
  specialize (X X1 X2). pose proof (delete_loop_keeps t rows (deleted v) 0) as Y. destruct (delete_loop t rows (deleted v) 0) as [d' o]. cbn [fst snd] in *. subst o.
  eexists. split; [reflexivity|]. intros x r Hx Lr NI. unfold fetch. rewrite get_put by apply fill_length. rewrite get_fill.
  destruct (r / CAP =? i) eqn:E.
  - apply Nat.eqb_eq in E. assert (Eq : r = R i (r - r / CAP * CAP)) by (subst i; dlia). assert (Lq : r - r / CAP * CAP < CAP) by dlia.
    remember (r - r / CAP * CAP) as q. clear Heqq E. subst r. rewrite in_vec in NI by exact Lq.
    cbn [chunk_fetch inserted deleted]. rewrite Y. 2:{ intros K. apply existsb_in in K. congruence. }
    destruct (C2 q Lq Lr) as [I1 D1]. destruct (W _ Lr) as [W3 W4]. unfold visible. rewrite (use_ok a x _ _ Hx T W3 I1), D1, (use_del a x _ Hx W4). reflexivity.
  - change (fetch x m r = visible x (row a r)). apply (fetch_ok a); assumption.
Qed.

(** ** The stated results *)
Lemma visibility n0 ops : legal_all (a0 n0) ops ->
  exists m, mrun (a0 n0) [] ops = Ok m /\ let a := arun (a0 n0) ops in
    forall x, txn_ok a x ->
      (forall r, r < total a -> fetch x m r = visible x (row a r)) /\
      (forall i n, n <= CAP -> i * CAP + n <= total a -> select x m i n = filter (fun p => visible x (row a (i * CAP + p))) (seq 0 n)).
Proof.
  intros L. destruct (run_ok ops (a0 n0) [] (inv0 n0) L) as (m & E & IV). exists m. split; [exact E|]. cbv zeta. intros x X. split.
  - intros r H. apply (fetch_ok (arun (a0 n0) ops)); assumption.
  - intros i n H1 H2. apply (select_ok (arun (a0 n0) ops)); assumption.
Qed.
Lemma delete_count n0 ops m i t rows : legal_all (a0 n0) ops -> mrun (a0 n0) [] ops = Ok m -> let a := arun (a0 n0) ops in legal a (Delete i t rows) ->
  exists m', delete_rows m i t rows = Ok (m', Some (length (filter (fun p => existsb (Nat.eqb p) rows && match a_del (row a (i * CAP + p)) with None => true | _ => false end) (seq 0 CAP)))).
Proof.
  intros L E a D. destruct (run_ok ops (a0 n0) [] (inv0 n0) L) as (m1 & E1 & IV). rewrite E in E1. inversion E1; subst m1.
  destruct (delete_count_gen _ m i t rows IV D) as (m' & E2 & _). exists m'. exact E2.
Qed.
Lemma cleanup_keeps n0 ops m l s n : legal_all (a0 n0) ops -> mrun (a0 n0) [] ops = Ok m -> let a := arun (a0 n0) ops in legal a (Cleanup l s n) ->
  exists m', cleanup_append m l s n = Ok m' /\
    forall x, running_id (tid x) -> (l < start_time x <= TRANSACTION_ID_START)%N ->
      (forall r, r < total a -> fetch x m' r = fetch x m r) /\
      (forall i k, k <= CAP -> i * CAP + k <= total a -> select x m' i k = select x m i k).
Proof.
  intros L E a D. destruct (run_ok ops (a0 n0) [] (inv0 n0) L) as (m1 & E1 & IV). rewrite E in E1. inversion E1; subst m1. fold a in IV.
  destruct (cleanup_step a m l s n IV D) as (m' & E2 & IV'). exists m'. split; [exact E2|]. intros x X1 X2.
  assert (Xa : txn_ok a x) by (split; [exact X1|destruct D; lia]).
  assert (Xb : txn_ok (astep a (Cleanup l s n)) x) by (split; [exact X1|destruct D; cbn [astep low]; lia]).
  split.
  - intros r H. rewrite (fetch_ok _ _ x r IV' Xb) by exact H. rewrite (fetch_ok _ _ x r IV Xa) by exact H. reflexivity.
  - intros i k H1 H2. rewrite (select_ok _ _ x i k IV' Xb) by assumption. rewrite (select_ok _ _ x i k IV Xa) by assumption. reflexivity.
Qed.
Lemma conflict n0 ops m i t rows p w : legal_all (a0 n0) ops -> mrun (a0 n0) [] ops = Ok m -> let a := arun (a0 n0) ops in
  running_id t -> (forall q, In q rows -> q < CAP /\ i * CAP + q < total a) ->
  In p rows -> a_del (row a (i * CAP + p)) = Some w -> w <> Running t ->
  exists m', delete_rows m i t rows = Ok (m', None) /\
    forall x r, txn_ok a x -> r < total a -> in_vector i rows r = false -> fetch x m' r = visible x (row a r).
Proof.
  intros L E a. destruct (run_ok ops (a0 n0) [] (inv0 n0) L) as (m1 & E1 & IV). rewrite E in E1. inversion E1; subst m1. apply conflict_gen. exact IV.
Qed.

(** ** Findings *)
Definition T1 : N := (TRANSACTION_ID_START + 1)%N.
Definition T2 : N := (TRANSACTION_ID_START + 2)%N.
Definition T3 : N := (TRANSACTION_ID_START + 3)%N.
Definition first_row : list op := [Append T1 1; Append T2 (CAP - 1); CommitAppend 5 1 (CAP - 1)].
Ltac running := unfold running_id, T1, T2, T3, TRANSACTION_ID_START; change NOT_DELETED_ID with 18446744073709551614%N; lia.
Lemma first_row_legal : legal_all (a0 0) first_row.
Proof.
  unfold first_row. cbn [legal_all legal astep total row a0]. pose proof CAP_big as CB. csplit; try exact I; try lia; try running; try (unfold time_ok, TRANSACTION_ID_START; lia).
  exists T2. split.
  - intros r Hr. destruct ((0 + 1 <=? r) && (r <? 0 + 1 + (CAP - 1))) eqn:E; [reflexivity|lia].
  - intros r Hr. destruct ((0 + 1 <=? r) && (r <? 0 + 1 + (CAP - 1))) eqn:E; [intros _; lia|].
    destruct ((0 <=? r) && (r <? 0 + 1)) eqn:F; cbn [a_ins]; [|lia]. unfold T1, T2. intros K. injection K as K. lia.
Qed.
Lemma cleanup_first_row : exists m m', mrun (a0 0) [] first_row = Ok m /\ cleanup_append m 10 0 CAP = Ok m' /\
  fetch {| tid := T3; start_time := 20 |} m 0 = false /\ fetch {| tid := T3; start_time := 20 |} m' 0 = true.
Proof.
  eexists. eexists. split; [vm_compute; reflexivity|]. split; [vm_compute; reflexivity|]. split; vm_compute; reflexivity.
Qed.

Definition deleted_committed (r : arow) : bool := match a_del r with Some (Committed _) => true | _ => false end.
Lemma del_id_committed a r : rows_ok a -> r < total a -> (del_id (a_del (row a r)) <? TRANSACTION_ID_START)%N = deleted_committed (row a r).
Proof.
  intros W H. destruct (W r H) as [_ W2]. unfold deleted_committed. destruct (a_del (row a r)) as [[t|c]|]; cbn [del_id id_of who_ok] in *.
  - destruct W2. lia.
  - unfold time_ok in W2. lia.
  - reflexivity.
Qed.
Lemma filter_seq_shift (f : nat -> bool) s n : length (filter f (seq s n)) = length (filter (fun p => f (s + p)) (seq 0 n)).
Proof.
  assert (H : forall n s k, length (filter f (seq (s + k) n)) = length (filter (fun p => f (s + p)) (seq k n))).
  { clear s n. induction n as [|n IH]; intros s k; [reflexivity|]. cbn [seq filter]. specialize (IH s (S k)). rewrite Nat.add_succ_r in IH.
    destruct (f (s + k)); cbn [length]; rewrite IH; reflexivity. }
  specialize (H n s 0). rewrite Nat.add_0_r in H. exact H.
Qed.
Lemma chunk_count a m i n : Inv a m -> n <= CAP -> R i n <= total a ->
  match get_chunk m i with None => 0 | Some c => c_deleted_count c n end = length (filter (fun r => deleted_committed (row a r)) (seq (i * CAP) n)).
Proof.
  intros (C & W & T) Hn Hm. specialize (C i). rewrite filter_seq_shift.
  destruct (get_chunk m i) as [[id d|v]|]; cbn [chunk_ok c_deleted_count] in *.
  - destruct C as (C1 & -> & C3). change (NOT_DELETED_ID <? TRANSACTION_ID_START)%N with false. cbv iota.
    rewrite filter_none; [reflexivity|]. intros p Hp. apply in_seq in Hp. destruct (C3 p ltac:(lia)) as [_ D]. unfold deleted_committed. rewrite D. reflexivity.
  - destruct C as (C1 & C2 & C3 & _). destruct (any_deleted v).
    + f_equal. apply filter_eq. intros p Hp. apply in_seq in Hp. destruct (C2 p ltac:(lia) ltac:(lia)) as [_ ->]. apply del_id_committed; [exact W|lia].
    + rewrite filter_none; [reflexivity|]. intros p Hp. apply in_seq in Hp. rewrite <- (del_id_committed a) by (auto; lia).
      destruct (C2 p ltac:(lia) ltac:(lia)) as [_ <-]. rewrite C3 by (auto; lia). reflexivity.
  - rewrite filter_none; [reflexivity|]. intros p Hp. apply in_seq in Hp. destruct (C p ltac:(lia) ltac:(lia)) as [_ D]. unfold deleted_committed. rewrite D. reflexivity.
Qed.
Lemma deleted_loop_ok a m count : Inv a m -> count <= total a -> forall n i, count <= (i + n) * CAP -> i * CAP <= count ->
  deleted_loop n m count i = length (filter (fun r => deleted_committed (row a r)) (seq (i * CAP) (count - i * CAP))).
Proof.
  intros IV H. induction n as [|n IH]; intros i H1 H2; cbn [deleted_loop].
  - replace (count - i * CAP) with 0 by nia. reflexivity.
  - rewrite (chunk_count a m i _ IV) by lia. destruct (Nat.le_gt_cases ((i + 1) * CAP) count) as [L|L].
    + rewrite (IH (S i)) by nia. rewrite Nat.min_l by lia. replace (count - i * CAP) with (CAP + (count - S i * CAP)) by nia.
      rewrite seq_app, filter_app, app_length. replace (i * CAP + CAP) with (S i * CAP) by nia. reflexivity.
    + rewrite Nat.min_r by nia. assert (Z : forall k j, count <= j * CAP -> deleted_loop k m count j = 0).
      { induction k as [|k IHk]; intros j Hj; [reflexivity|]. cbn [deleted_loop]. rewrite IHk by nia. replace (count - j * CAP) with 0 by lia. rewrite Nat.min_0_r.
        destruct (get_chunk m j) as [[id d|v]|]; cbn [c_deleted_count seq filter length]; [destruct (d <? _)%N|destruct (any_deleted v)|]; reflexivity. }
      rewrite Z by nia. lia.
Qed.
Lemma deleted_count_ok n0 ops m count : legal_all (a0 n0) ops -> mrun (a0 n0) [] ops = Ok m -> let a := arun (a0 n0) ops in count <= total a ->
  committed_deleted_count m count = length (filter (fun r => deleted_committed (row a r)) (seq 0 count)).
Proof.
  intros L E a H. destruct (run_ok ops (a0 n0) [] (inv0 n0) L) as (m1 & E1 & IV). rewrite E in E1. inversion E1; subst m1.
  unfold committed_deleted_count. rewrite (deleted_loop_ok a m count IV H).
  - cbn [Nat.mul]. rewrite Nat.sub_0_r. reflexivity.
  - dlia.
  - lia.
Qed.

(** an observer that started exactly at the bound *)
Definition whole_vector : list op := [Append T1 CAP; CommitAppend 10 0 CAP].
Lemma whole_vector_legal : legal_all (a0 0) whole_vector.
Proof.
  unfold whole_vector. cbn [legal_all legal astep total row a0]. pose proof CAP_big as CB. csplit; try exact I; try lia; try running; try (unfold time_ok, TRANSACTION_ID_START; lia).
  exists T1. split.
  - intros r Hr. destruct ((0 <=? r) && (r <? 0 + CAP)) eqn:E; [reflexivity|lia].
  - intros r Hr _. lia.
Qed.
Lemma cleanup_boundary : exists m m', mrun (a0 0) [] whole_vector = Ok m /\ cleanup_append m 10 0 CAP = Ok m' /\
  fetch {| tid := T3; start_time := 10 |} m 0 = false /\ fetch {| tid := T3; start_time := 10 |} m' 0 = true.
Proof. eexists. eexists. split; [vm_compute; reflexivity|]. split; [vm_compute; reflexivity|]. split; vm_compute; reflexivity. Qed.

(** a failed delete leaves marks *)
Definition one_deleted : list op := [Delete 0 T1 [1]].
Lemma one_deleted_legal : legal_all (a0 2) one_deleted.
Proof.
  unfold one_deleted. cbn [legal_all legal]. pose proof CAP_big as CB. csplit; try exact I; try running; [discriminate|].
  intros p [<-|[]]. cbn [a0 total row]. csplit; [lia|lia|left; reflexivity].
Qed.
Lemma failed_delete_marks : exists m m', mrun (a0 2) [] one_deleted = Ok m /\ delete_rows m 0 T2 [0; 1] = Ok (m', None) /\
  fetch {| tid := T2; start_time := 7 |} m 0 = true /\ fetch {| tid := T2; start_time := 7 |} m' 0 = false.
Proof. eexists. eexists. split; [vm_compute; reflexivity|]. split; [vm_compute; reflexivity|]. split; vm_compute; reflexivity. Qed.

(** a delete mark survives the revert of its row and hits the next row stored there *)
Lemma stale_mark : exists m, mrun (a0 1) [] [Append T1 1; Delete 0 T1 [1]; Revert 1; Append T2 1] = Ok m /\
  a_del (row (arun (a0 1) [Append T1 1; Delete 0 T1 [1]; Revert 1; Append T2 1]) 1) = None /\
  exists m', delete_rows m 0 T2 [1] = Ok (m', None).
Proof. eexists. split; [vm_compute; reflexivity|]. split; [vm_compute; reflexivity|]. eexists. vm_compute. reflexivity. Qed.

(** two old rows; three rows are added and committed; one of each kind is deleted *)
Definition history : list op := [Append T1 3; CommitAppend 4 2 3; Delete 0 T2 [0; 3]; CommitDelete 0 5 [0; 3]; Append T3 1].
Lemma history_legal : legal_all (a0 2) history.
Proof.
  unfold history. cbn [legal_all legal]. pose proof CAP_big as CB.
  assert (B : 3 < CAP) by (apply Nat.ltb_lt; reflexivity).
  csplit; try exact I; try running; try discriminate; try (unfold time_ok, TRANSACTION_ID_START; lia).
  - cbn [astep total a0]. lia.
  - exists T1. cbn [astep total row a0]. split.
    + intros r Hr. destruct ((2 <=? r) && (r <? 2 + 3)) eqn:E; [reflexivity|lia].
    + intros r Hr. destruct ((2 <=? r) && (r <? 2 + 3)) eqn:E; [intros _; lia|]. cbn [a_ins]. discriminate.
  - intros p [<-|[<-|[]]]; (split; [lia|]); (split; [cbn [astep total a0]; lia|]); left; reflexivity.
  - intros p [<-|[<-|[]]]; (split; [lia|]); (split; [cbn [astep total a0]; lia|]); exists T2; vm_compute; reflexivity.
Qed.
