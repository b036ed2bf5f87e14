From Verif Require Import Bytes Outcome VersionModel VersionSpec VersionProofs RowDelModel RowDelSpec RowDelProofs RowGrpModel RowGrpSpec.
From Coq Require Import ZifyBool ZifyNat ZifyN Permutation.
Local Open Scope nat_scope.

Section P.
Context {A : Type}.
Notation group := (group A).
Notation coll := (coll A).

Lemma upd_app {B} (l r : list B) x y : upd (l ++ x :: r) (length l) y = l ++ y :: r.
Proof. induction l as [|a l IH]; cbn; [reflexivity|]. rewrite IH. reflexivity. Qed.
Lemma nth_mid {B} (l r : list B) x : nth_error (l ++ x :: r) (length l) = Some x.
Proof. induction l; cbn; auto. Qed.

(** *** appending *)
Fixpoint dcont (s : nat) (gs : list group) : Prop :=
  match gs with [] => True | g :: r => g_start g = s /\ dcont (s + length (g_data g)) r end.
Fixpoint fbl (size : nat) (gs : list group) : Prop :=
  match gs with
  | [] => False
  | g :: r => match r with [] => length (g_data g) <= size | _ => length (g_data g) = size /\ fbl size r end
  end.
Definition tail_ok (size : nat) (l : group) (chunk : list A) (tl : list group) : Prop :=
  exists l' r, tl = l' :: r /\ (g_start l' = g_start l /\ exists e, g_data l' = g_data l ++ e) /\ g_del l' = g_del l /\ Forall (fun g => g_del g = fresh 0) r /\
    dcont (g_start l) tl /\ fbl size tl /\ concat (map g_data tl) = g_data l ++ chunk.
Fixpoint last_len (gs : list group) : nat := match gs with [] => 0 | g :: r => match r with [] => length (g_data g) | _ => last_len r end end.

Lemma append_loop_ok : forall fuel chunk c pre l off, groups c = pre ++ [l] -> off = length (g_data l) -> off <= gsize c -> 0 < gsize c ->
  length chunk + (if off =? gsize c then 1 else 0) < fuel ->
  exists tl rest, append_loop fuel c (length pre) off chunk = Ok (with_groups c (pre ++ tl), length pre + length tl - 1, last_len tl, rest) /\
    tail_ok (gsize c) l chunk tl.
Proof.
  induction fuel as [|fuel IH]; intros chunk c pre l off G O L Z F; [lia|]. cbn [append_loop]. rewrite G, nth_mid.
  replace (off <=? gsize c) with true by lia. rewrite upd_app.
  set (n := Nat.min (length chunk) (gsize c - off)).
  destruct (length chunk - n =? 0) eqn:E.
  - exists [add_data l (firstn n chunk)], chunk. assert (n = length chunk) by (subst n; lia). split.
    { cbn [last_len add_data g_data]. rewrite app_length, firstn_length. cbn [length]. repeat f_equal; lia. }
    exists (add_data l (firstn n chunk)), []. rewrite H, firstn_all. cbn. rewrite app_nil_r, app_length. repeat split; eauto. lia.
  - assert (N : n = gsize c - off) by (subst n; lia).
    set (c1 := with_groups c (pre ++ [add_data l (firstn n chunk)])).
    set (ng := {| g_start := g_start l + (off + n); g_data := []; g_del := fresh 0 |} : group).
    assert (LL : length (g_data l ++ firstn n chunk) = gsize c) by (rewrite app_length, firstn_length; lia).
    destruct (IH (skipn n chunk) (new_group c1 (g_start l + (off + n))) (pre ++ [add_data l (firstn n chunk)]) ng 0) as (tl & rest & R & T);
      [reflexivity|reflexivity|cbn; lia|cbn; lia| |].
    { rewrite skipn_length. cbn [new_group with_groups gsize c1]. replace (0 =? gsize c) with false by lia. destruct (off =? gsize c) eqn:Q; lia. }
    replace (length (groups (new_group c1 (g_start l + (off + n)))) - 1) with (length (pre ++ [add_data l (firstn n chunk)])).
    2:{ unfold new_group, c1, with_groups. cbn [groups]. rewrite !app_length. cbn. lia. }
    fold c1. rewrite R. exists (add_data l (firstn n chunk) :: tl), rest. destruct T as (l' & r & -> & T1 & T2 & T3 & T4 & T5 & T6). split.
    { unfold new_group, c1, with_groups. cbn [gsize row_start total groups]. rewrite <- app_assoc. cbn [app length last_len]. rewrite app_length. cbn [length]. replace (length pre + 1 + S (length r) - 1) with (length pre + S (S (length r)) - 1) by lia. reflexivity. }
    exists (add_data l (firstn n chunk)), (l' :: r). split; [reflexivity|]. split; [split; [reflexivity|eexists; reflexivity]|]. split; [reflexivity|]. split; [constructor; [exact T2|exact T3]|].
    split; [|split].
    + cbn [dcont add_data g_start g_data] in *. split; [reflexivity|]. rewrite LL. cbn [ng g_start] in *. replace (g_start l + gsize c) with (g_start l + (off + n)) by lia. exact T4.
    + change (length (g_data l ++ firstn n chunk) = gsize c /\ fbl (gsize c) (l' :: r)). split; [exact LL|]. exact T5.
    + cbn [map concat add_data g_data]. cbn [map concat] in T6. rewrite T6. cbn [ng g_data app]. rewrite <- app_assoc, firstn_skipn. reflexivity.
Qed.

(** the groups from the one the insertion starts with *)
Record J (size : nat) (pre : list group) (g0 : group) (c : coll) (st : astate) (xs : list A) (news : list group) : Prop :=
  { j_groups : groups c = pre ++ news; j_size : gsize c = size; j_first : a_first st = length pre;
    j_cur : a_cur st = length pre + length news - 1; j_off : a_off st = last_len news; j_news : tail_ok size g0 xs news;
    j_total : a_total st = length xs }.

Lemma fbl_app size init l tl chunk : fbl size (init ++ [l]) -> tail_ok size l chunk tl -> fbl size (init ++ tl).
Proof.
  intros F (l' & r & -> & _ & _ & _ & _ & T & _). induction init as [|g i IH]; [exact T|]. cbn [app fbl] in *.
  destruct (i ++ [l]) eqn:E; [destruct i; discriminate|]. destruct (i ++ l' :: r) eqn:E2; [destruct i; discriminate|]. split; [apply F|]. apply IH, F.
Qed.
Lemma dcont_app s init l tl size chunk : dcont s (init ++ [l]) -> tail_ok size l chunk tl -> dcont s (init ++ tl).
Proof.
  intros F (l' & r & E & _ & _ & _ & T & _). revert s F. induction init as [|g i IH]; intros s F.
  - cbn [app dcont] in *. destruct F as [<- _]. exact T.
  - cbn [app dcont] in *. split; [apply F|]. apply IH, F.
Qed.
Lemma split_last {B} (l : list B) : l <> [] -> exists i x, l = i ++ [x].
Proof. intros H. destruct (exists_last H) as (i & x & E). exists i, x. exact E. Qed.
Lemma last_len_app i l : last_len (i ++ [l]) = length (g_data l).
Proof. induction i as [|g i IH]; [reflexivity|]. cbn [app last_len]. destruct (i ++ [l]) eqn:E; [destruct i; discriminate|]. exact IH. Qed.
Lemma fbl_last size i l : fbl size (i ++ [l]) -> length (g_data l) <= size.
Proof. induction i as [|g i IH]; cbn [app fbl]; [auto|]. destruct (i ++ [l]) eqn:E; [destruct i; discriminate|]. intros [_ H]. apply IH, H. Qed.
Lemma last_len_app2 i tl : tl <> [] -> last_len (i ++ tl) = last_len tl.
Proof. intros H. destruct (split_last tl H) as (j & x & ->). rewrite app_assoc, !last_len_app. reflexivity. Qed.

Lemma tail_compose size g0 xs init l chunk tl : tail_ok size g0 xs (init ++ [l]) -> tail_ok size l chunk tl -> tail_ok size g0 (xs ++ chunk) (init ++ tl).
Proof.
  intros T U. destruct T as (l0 & r0 & E & T1 & T2 & T3 & T4 & T5 & T6). assert (U' := U). destruct U as (l' & r & -> & U1 & U2 & U3 & U4 & U5 & U6).
  destruct init as [|g i].
  - cbn [app] in *. inversion E; subst. cbn [map concat] in T6. rewrite app_nil_r in T6. exists l', r. split; [reflexivity|]. split; [split; [destruct T1, U1; congruence|]|].
    { destruct T1 as [_ [e1 T1]], U1 as [_ [e2 U1]]. exists (e1 ++ e2). rewrite U1, T1, <- app_assoc. reflexivity. }
    split; [congruence|]. split; [exact U3|].
    split; [destruct T1 as [<- _]; exact U4|]. split; [exact U5|]. etransitivity; [exact U6|]. rewrite T6, <- app_assoc. reflexivity.
  - cbn [app] in *. inversion E; subst. exists l0, (i ++ l' :: r). split; [reflexivity|]. split; [exact T1|]. split; [exact T2|]. split.
    { apply Forall_app in T3. destruct T3 as [T3 T3']. apply Forall_app. split; [exact T3|]. constructor; [|exact U3]. inversion T3'; subst. congruence. }
    split; [|split].
    + change (dcont (g_start g0) ((l0 :: i) ++ l' :: r)). eapply dcont_app; [|exact U']. exact T4.
    + change (fbl size ((l0 :: i) ++ l' :: r)). eapply fbl_app; [|exact U']. exact T5.
    + change (concat (map g_data ((l0 :: i) ++ l' :: r)) = g_data g0 ++ xs ++ chunk). change (concat (map g_data ((l0 :: i) ++ [l])) = g_data g0 ++ xs) in T6.
      rewrite map_app, concat_app in *. rewrite U6. cbn [map concat] in T6. rewrite app_nil_r in T6. cbn [map concat]. rewrite !app_assoc in *. rewrite T6. reflexivity.
Qed.

Lemma append_ok size pre g0 c st xs news chunk : 0 < size -> J size pre g0 c st xs news -> exists c' st' news' rest,
  append c st chunk = Ok (c', st', rest) /\ J size pre g0 c' st' (xs ++ chunk) news' /\ row_start c' = row_start c /\ total c' = total c.
Proof.
  intros Z [G S F C O N T]. destruct (split_last news) as (init & l & EN). { intros ->. destruct N as (? & ? & ? & _). discriminate. } subst news.
  destruct N as (l0 & r0 & E & N1 & N2 & N3 & N4 & N5 & N6).
  assert (LB : length (g_data l) <= size) by (apply (fbl_last _ _ _ N5)).
  unfold append. rewrite last_len_app in O.
  destruct (append_loop_ok (Datatypes.S (Datatypes.S (length chunk))) chunk c (pre ++ init) l (a_off st)) as (tl & rest & R & TO).
  { rewrite G, app_assoc. reflexivity. } { exact O. } { lia. } { lia. } { destruct (a_off st =? gsize c); lia. }
  replace (length (pre ++ init)) with (a_cur st) in R. 2:{ rewrite C, !app_length. cbn. lia. }
  rewrite R. cbn [rbind]. eexists _, _, (init ++ tl), rest. split; [reflexivity|]. split; [|split; reflexivity].
  assert (TL : tl <> []) by (destruct TO as (? & ? & -> & _); discriminate).
  constructor; cbn [groups gsize with_groups a_first a_cur a_off a_total]; auto.
  - rewrite <- app_assoc. reflexivity.
  - rewrite C, !app_length. cbn. lia.
  - rewrite last_len_app2 by exact TL. reflexivity.
  - rewrite S in TO. eapply tail_compose; [|exact TO]. exists l0, r0. auto 8.
  - rewrite app_length. lia.
Qed.

Lemma appends_ok size pre g0 : 0 < size -> forall chunks c st xs news, J size pre g0 c st xs news -> exists c' st' news' rest,
  appends c st chunks = Ok (c', st', rest) /\ J size pre g0 c' st' (xs ++ concat chunks) news' /\ row_start c' = row_start c /\ total c' = total c.
Proof.
  intros Z. induction chunks as [|ch r IH]; intros c st xs news H; cbn [appends concat].
  - exists c, st, news, []. rewrite app_nil_r. auto.
  - destruct (append_ok _ _ _ _ _ _ _ ch Z H) as (c1 & st1 & n1 & rest1 & -> & J1 & R1 & T1). cbn [rbind].
    destruct (IH c1 st1 (xs ++ ch) n1 J1) as (c2 & st2 & n2 & rest2 & E2 & J2 & R2 & T2). rewrite app_assoc.
    destruct r as [|ch2 r].
    + cbn [appends] in E2. inversion E2; subst. exists c2, st2, n1, rest1. split; [reflexivity|]. cbn [concat] in *. rewrite app_nil_r in *. auto.
    + exists c2, st2, n2, rest2. split; [exact E2|]. split; [exact J2|]. split; congruence.
Qed.

Definition settle (g : group) : group := set_count g (length (g_data g)).
Lemma settle_id g : g_count g = length (g_data g) -> settle g = g.
Proof. unfold settle, set_count, set_del, g_count. destruct g as [s dt [n m v]]. cbn. intros ->. reflexivity. Qed.
Fixpoint missing (gs : list group) : nat := match gs with [] => 0 | g :: r => (length (g_data g) - g_count g) + missing r end.
Lemma settle_all gs : missing gs = 0 -> Forall (fun g => g_count g <= length (g_data g)) gs -> map settle gs = gs.
Proof. induction gs as [|g r IH]; cbn; [reflexivity|]. intros M F. inversion F; subst. rewrite settle_id by lia. rewrite IH by (auto; lia). reflexivity. Qed.

Lemma fin_ok size : forall gs, fbl size gs -> Forall (fun g => g_count g <= length (g_data g)) gs -> fin_loop size gs (missing gs) = Ok (map settle gs).
Proof.
  induction gs as [|g r IH]; intros F C; [destruct F|]. cbn [fin_loop]. destruct (missing (g :: r) =? 0) eqn:E.
  { rewrite settle_all; [reflexivity|lia|exact C]. }
  inversion C as [|? ? C1 C2]; subst. cbn [fbl] in F. destruct r as [|g2 r].
  - cbn [missing] in *. replace (g_count g <=? size) with true by lia.
    replace (Nat.min _ _) with (length (g_data g) - g_count g) by lia. replace (size <? g_count g + _) with false by lia.
    replace (length (g_data g) - g_count g + 0 - (length (g_data g) - g_count g)) with 0 by lia. cbn [fin_loop Nat.eqb rbind map].
    unfold settle. replace (g_count g + (length (g_data g) - g_count g)) with (length (g_data g)) by lia. reflexivity.
  - destruct F as [F1 F2]. change (missing (g :: g2 :: r)) with ((length (g_data g) - g_count g) + missing (g2 :: r)).
    replace (g_count g <=? size) with true by lia. replace (Nat.min _ _) with (size - g_count g) by lia.
    replace (size <? g_count g + (size - g_count g)) with false by lia.
    replace (length (g_data g) - g_count g + missing (g2 :: r) - (size - g_count g)) with (missing (g2 :: r)) by lia.
    rewrite IH by assumption. cbn [rbind]. unfold settle at 2. cbn [map]. do 3 f_equal. unfold set_count, set_del. f_equal. f_equal. lia.
Qed.

Lemma settle_fields g : g_start (settle g) = g_start g /\ g_data (settle g) = g_data g /\ g_count (settle g) = length (g_data g).
Proof. destruct g; cbn. auto. Qed.
Lemma dcont_settle gs : forall s, dcont s gs -> contiguous s (map settle gs).
Proof. induction gs as [|g r IH]; intros s; cbn [dcont map contiguous]; [auto|]. intros [H1 H2]. destruct (settle_fields g) as (-> & _ & ->). auto. Qed.
Lemma contiguous_app (g1 g2 : list group) : forall s, contiguous s (g1 ++ g2) <-> contiguous s g1 /\ contiguous (s + list_sum (map g_count g1)) g2.
Proof.
  induction g1 as [|g r IH]; intros s; cbn [app contiguous map list_sum].
  - rewrite Nat.add_0_r. tauto.
  - rewrite IH. change (list_sum (g_count g :: map g_count r)) with (g_count g + list_sum (map g_count r)). rewrite Nat.add_assoc. tauto.
Qed.
Lemma sum_data (gs : list group) : Forall (fun g => length (g_data g) = g_count g) gs -> list_sum (map g_count gs) = length (concat (map g_data gs)).
Proof. induction 1 as [|g r H F IH]; [reflexivity|]. cbn [map concat]. rewrite app_length. change (list_sum (g_count g :: map g_count r)) with (g_count g + list_sum (map g_count r)). lia. Qed.
Lemma fbl_all size gs : fbl size gs -> Forall (fun g => length (g_data g) <= size) gs.
Proof. induction gs as [|g r IH]; [constructor|]. cbn [fbl]. destruct r; intros H; constructor; try lia; [constructor|]. apply IH, H. Qed.
Lemma missing_tail size l xs tl : g_count l = length (g_data l) -> tail_ok size l xs tl -> missing tl = length xs /\ Forall (fun g => g_count g <= length (g_data g)) tl.
Proof.
  intros L (l' & r & -> & [S [e SE]] & D & F & _ & _ & C). assert (CL : g_count l' = g_count l) by (unfold g_count; rewrite D; reflexivity).
  apply (f_equal (@length A)) in C. rewrite app_length in C. cbn [map concat] in C. rewrite app_length in C.
  assert (M : missing r = length (concat (map g_data r))).
  { clear C. induction F as [|g r0 H F IH]; [reflexivity|]. cbn [missing map concat]. rewrite app_length, IH. unfold g_count. rewrite H. cbn. lia. }
  assert (LE : g_count l <= length (g_data l')).
  { rewrite SE, app_length. lia. }
  split; [cbn [missing]; lia|]. constructor; [lia|]. apply Forall_impl with (2 := F). intros g Hg. unfold g_count. rewrite Hg. cbn. lia.
Qed.

Lemma insert_shape c chunks : 0 < gsize c -> Forall (fun g => g_count g <= gsize c /\ length (g_data g) = g_count g) (groups c) ->
  exists pre g0 news rest c', (groups c = pre ++ [g0] \/ (groups c = [] /\ pre = [] /\ g0 = {| g_start := row_start c; g_data := []; g_del := fresh 0 |})) /\
   insert c chunks = Ok (c', rest) /\ tail_ok (gsize c) g0 (concat chunks) news /\ groups c' = pre ++ map settle news /\
   gsize c' = gsize c /\ row_start c' = row_start c /\ total c' = total c + length (concat chunks).
Proof.
  intros Z F. unfold insert, init_append.
  set (c1 := match groups c with [] => new_group c (row_start c) | _ => c end).
  assert (G : exists pre g0, groups c1 = pre ++ [g0] /\ g_count g0 = length (g_data g0) /\ length (g_data g0) <= gsize c /\
    (groups c = pre ++ [g0] \/ (groups c = [] /\ pre = [] /\ g0 = {| g_start := row_start c; g_data := []; g_del := fresh 0 |}))).
  { subst c1. destruct (groups c) as [|g gs] eqn:E.
    - exists [], {| g_start := row_start c; g_data := []; g_del := fresh 0 |}. unfold new_group, with_groups. cbn [groups]. rewrite E. cbn. repeat split; auto; lia.
    - destruct (split_last (g :: gs)) as (pre & g0 & E0); [discriminate|]. exists pre, g0. rewrite E, E0 in *. apply Forall_app in F. destruct F as [_ F]. inversion F; subst. repeat split; auto; lia. }
  destruct G as (pre & g0 & G & GC & GL & GD).
  assert (C1 : gsize c1 = gsize c /\ row_start c1 = row_start c /\ total c1 = total c) by (subst c1; destruct (groups c); repeat split).
  destruct C1 as (C1 & C2 & C3).
  replace (length (groups c1) - 1) with (length pre) by (rewrite G, app_length; cbn; lia). rewrite G, nth_mid. cbn [rbind].
  destruct (appends_ok (gsize c) pre g0 Z chunks c1 {| a_first := length pre; a_cur := length pre; a_off := g_count g0; a_total := 0 |} [] [g0]) as (c2 & st & news & rest & -> & JJ & R & T).
  { constructor; cbn [a_first a_cur a_off a_total length last_len]; auto; [lia|]. exists g0, []. rewrite app_nil_r. cbn. rewrite app_nil_r. split; [reflexivity|]. split; [split; [reflexivity|exists []; rewrite app_nil_r; reflexivity]|]. split; [reflexivity|]. split; [constructor|]. auto. }
  destruct JJ as [J1 J2 J3 J4 J5 J6 J7]. cbn [rbind app] in *. destruct (missing_tail _ _ _ _ GC J6) as [M1 M2].
  unfold finalize. rewrite J3, J1, skipn_app, skipn_all, Nat.sub_diag, firstn_app, firstn_all, Nat.sub_diag. cbn [skipn firstn app]. rewrite app_nil_r.
  rewrite J7, <- M1, J2, fin_ok; [|destruct J6 as (? & ? & _ & _ & _ & _ & _ & X & _); exact X|exact M2].
  cbn [rbind]. eexists pre, g0, news, rest, _. split; [exact GD|]. split; [reflexivity|]. split; [exact J6|]. cbn. repeat split; lia.
Qed.

(** *** the invariant *)
Definition loc (d : nat -> bool) (g : group) : nat -> bool := fun r => (r <? g_count g) && d (g_start g + r).
Definition Inv (c : coll) (rows : list A) (d : nat -> bool) (w : N) : Prop :=
  0 < gsize c /\ layout c rows /\ (forall r, row_start c + length rows <= r -> d r = false) /\
  Forall (fun g => GI (g_del g) (loc d g) /\ (ver (g_del g) <= w)%N) (groups c).

Lemma GI_count g n d : GI g d <-> GI {| r_count := n; mgr := mgr g; ver := ver g |} d.
Proof. unfold GI. cbn. tauto. Qed.
Lemma dcont_starts gs : forall s, dcont s gs -> Forall (fun g => s <= g_start g) gs.
Proof. induction gs as [|g r IH]; intros s H; constructor; destruct H as [H1 H2]; [lia|]. apply Forall_impl with (2 := IH _ H2). cbn. lia. Qed.
Lemma sum_app l1 l2 : list_sum (l1 ++ l2) = list_sum l1 + list_sum l2.
Proof. apply list_sum_app. Qed.

Lemma insert_inv c chunks rows d w : Inv c rows d w -> exists c' rest, insert c chunks = Ok (c', rest) /\ Inv c' (rows ++ concat chunks) d w /\ gsize c' = gsize c /\ row_start c' = row_start c.
Proof.
  intros (Z & (L1 & L2 & L3 & L4) & D & GV). destruct (insert_shape c chunks Z L2) as (pre & g0 & news & rest & c' & GD & E & TO & G' & S' & R' & T').
  exists c', rest. split; [exact E|]. split; [|split; [exact S'|exact R']].
  assert (P : contiguous (row_start c) (pre ++ [g0]) /\ Forall (fun g => g_count g <= gsize c /\ length (g_data g) = g_count g) (pre ++ [g0]) /\ concat (map g_data (pre ++ [g0])) = rows /\
     Forall (fun g => GI (g_del g) (loc d g) /\ (ver (g_del g) <= w)%N) (pre ++ [g0])).
  { destruct GD as [GD|(GD & -> & ->)]; [rewrite <- GD; auto|]. rewrite GD in *. cbn in L4 |- *. subst rows. repeat split; auto.
    - constructor; [|constructor]. cbn. lia.
    - constructor; [|constructor]. split; [intros r; reflexivity|]. cbn. lia. }
  clear L1 L2 L4 GV. destruct P as (L1 & L2 & L4 & GV).
  destruct TO as (l' & r & -> & [N1 [e N1']] & N2 & N3 & N4 & N5 & N6).
  apply contiguous_app in L1. destruct L1 as [L1 L1']. cbn in L1'. destruct L1' as [L1' _].
  assert (F2 := L2). apply Forall_app in F2. destruct F2 as [F2 F2']. inversion F2' as [|? ? F3 _]; subst. apply Forall_app in GV. destruct GV as [V1 V2]. inversion V2 as [|? ? V3 _]; subst.
  assert (EN : g_start g0 + g_count g0 = row_start c + length (concat (map g_data (pre ++ [g0])))).
  { rewrite L1', map_app, concat_app, app_length. rewrite <- sum_data; [|apply Forall_impl with (2 := F2); intros; tauto]. cbn [map concat]. rewrite app_nil_r. lia. }
  unfold Inv, layout. rewrite S', R', T', G', L3. csplit.
  - exact Z.
  - apply contiguous_app. split; [exact L1|]. rewrite <- L1'. apply dcont_settle. exact N4.
  - apply Forall_app. split; [exact F2|]. apply fbl_all in N5. apply Forall_map. apply Forall_impl with (2 := N5). intros g Hg. destruct (settle_fields g) as (_ & -> & ->). auto.
  - rewrite app_length. lia.
  - rewrite !map_app, !concat_app, map_map. cbn [map concat]. rewrite app_nil_r, <- app_assoc. f_equal. exact N6.
  - intros x Hx. apply D. rewrite app_length in Hx. lia.
  - apply Forall_app. split; [exact V1|]. apply Forall_map. constructor.
    + unfold settle, set_count, set_del. cbn [g_del ver]. rewrite N2. split; [|apply V3]. apply -> GI_count. eapply GI_ext; [|apply V3]. intros x. unfold loc, g_count at 2. cbn [g_del g_start r_count]. rewrite N1.
      destruct (x <? g_count g0) eqn:Q1.
      * replace (x <? length (g_data l')) with true; [reflexivity|]. rewrite N1', app_length. lia.
      * cbn [andb]. rewrite D by lia. rewrite andb_false_r. reflexivity.
    + destruct N4 as [_ N4]. apply dcont_starts in N4. rewrite N1', app_length in N4. clear - N3 N4 D EN F3. induction r as [|g r IH]; constructor.
      * inversion N3 as [|? ? E3 _]; subst. inversion N4; subst. unfold settle, set_count, set_del. cbn [g_del ver]. rewrite E3. cbn [fresh mgr ver GI]. split; [|lia]. intros x. unfold loc. cbn [g_start]. rewrite D by lia. apply andb_false_r.
      * inversion N3; inversion N4; subst. apply IH; assumption.
Qed.

(** *** merging *)
Lemma move_contiguous (gs : list group) : forall s, contiguous s (move_groups s gs).
Proof. induction gs as [|g r IH]; intros s; cbn; [exact I|]. split; [reflexivity|]. apply IH. Qed.
Lemma move_data (gs : list group) : forall s, map g_data (move_groups s gs) = map g_data gs.
Proof. induction gs as [|g r IH]; intros s; cbn; [reflexivity|]. rewrite IH. reflexivity. Qed.
Lemma move_sizes (P : group -> Prop) (gs : list group) : (forall g s, P g -> P {| g_start := s; g_data := g_data g; g_del := g_del g |}) -> forall s, Forall P gs -> Forall P (move_groups s gs).
Proof. intros H s F. revert s. induction F as [|g r Hg F IH]; intros s; cbn; constructor; auto. Qed.
Lemma merge_layout (c : coll) rows (e : coll) rows' : layout c rows -> layout e rows' -> gsize e = gsize c -> layout (merge c e) (rows ++ rows').
Proof.
  intros (L1 & L2 & L3 & L4) (M1 & M2 & M3 & M4) S. unfold merge, layout. cbn [gsize row_start total groups].
  assert (SUM : list_sum (map g_count (groups c)) = total c). { rewrite sum_data, L4; [congruence|]. apply Forall_impl with (2 := L2). tauto. }
  csplit.
  - apply contiguous_app. split; [exact L1|]. rewrite SUM. apply move_contiguous.
  - apply Forall_app. split; [exact L2|]. rewrite <- S. apply move_sizes; [|exact M2]. auto.
  - rewrite app_length. lia.
  - rewrite map_app, concat_app, L4, move_data, M4. reflexivity.
Qed.

(** an insertion does not look at the deletions *)
Lemma insert_layout (c : coll) chunks rows : 0 < gsize c -> layout c rows -> exists c' rest, insert c chunks = Ok (c', rest) /\ layout c' (rows ++ concat chunks) /\ gsize c' = gsize c /\ row_start c' = row_start c.
Proof.
  intros Z (L1 & L2 & L3 & L4). destruct (insert_shape c chunks Z L2) as (pre & g0 & news & rest & c' & GD & E & TO & G' & S' & R' & T').
  exists c', rest. split; [exact E|]. split; [|split; [exact S'|exact R']].
  assert (P : contiguous (row_start c) (pre ++ [g0]) /\ Forall (fun g => g_count g <= gsize c /\ length (g_data g) = g_count g) (pre ++ [g0]) /\ concat (map g_data (pre ++ [g0])) = rows).
  { destruct GD as [GD|(GD & -> & ->)]; [rewrite <- GD; auto|]. rewrite GD in *. cbn in L4 |- *. subst rows. repeat split; auto. constructor; [|constructor]. cbn. lia. }
  clear L1 L2 L4. destruct P as (L1 & L2 & L4). destruct TO as (l' & r & -> & [N1 [e N1']] & N2 & N3 & N4 & N5 & N6).
  apply contiguous_app in L1. destruct L1 as [L1 L1']. cbn in L1'. destruct L1' as [L1' _].
  assert (F2 := L2). apply Forall_app in F2. destruct F2 as [F2 F2']. subst rows.
  unfold layout. rewrite S', R', T', G', L3. csplit.
  - apply contiguous_app. split; [exact L1|]. rewrite <- L1'. apply dcont_settle. exact N4.
  - apply Forall_app. split; [exact F2|]. apply fbl_all in N5. apply Forall_map. apply Forall_impl with (2 := N5). intros g Hg. destruct (settle_fields g) as (_ & -> & ->). auto.
  - rewrite app_length. lia.
  - rewrite !map_app, !concat_app, map_map. cbn [map concat]. rewrite app_nil_r, <- app_assoc. f_equal. exact N6.
Qed.
Lemma run_layout size : 0 < size -> forall (ops : list (op A)) c rows, gsize c = size -> layout c rows -> Forall (op_ok size) ops ->
  exists c', run c ops = Ok c' /\ layout c' (rows ++ concat (map rows_of ops)) /\ gsize c' = size /\ row_start c' = row_start c.
Proof.
  intros Z. induction ops as [|o ops IH]; intros c rows S L F; cbn [run map concat].
  - exists c. rewrite app_nil_r. auto.
  - inversion F as [|? ? F1 F2]; subst. destruct o as [chunks|e]; cbn [rows_of].
    + destruct (insert_layout c chunks rows Z L) as (c1 & rest & -> & L' & S' & R'). cbn [rbind]. destruct (IH c1 _ S' L' F2) as (c2 & E & L2 & S2 & R2). exists c2. rewrite app_assoc. csplit; auto. congruence.
    + destruct F1 as [F1 [rs' M]]. assert (M' := M). destruct M' as (_ & _ & _ & M4). rewrite M4. destruct (IH (merge c e) (rows ++ rs')) as (c2 & E & L2 & S2 & R2); [reflexivity|apply merge_layout; auto|exact F2|]. exists c2. rewrite app_assoc. auto.
Qed.

(** *** lookup *)
Lemma contiguous_nth (gs : list group) : forall s i j (g h : group), contiguous s gs -> nth_error gs i = Some g -> nth_error gs j = Some h -> i < j -> g_start g + g_count g <= g_start h.
Proof.
  revert gs.
  assert (Q : forall (gs : list group) s j (h : group), contiguous s gs -> nth_error gs j = Some h -> s <= g_start h).
  { induction gs as [|x gs IH]; intros s j h C E; [destruct j; discriminate E|]. destruct C as [C1 C2]. destruct j as [|j]; cbn in E; [inversion E; subst; lia|]. specialize (IH _ _ _ C2 E). lia. }
  induction gs as [|x gs IH]; intros s i j g h C E1 E2 L; [destruct i; discriminate E1|]. destruct C as [C1 C2]. destruct j as [|j]; [lia|]. cbn in E2. destruct i as [|i]; cbn in E1.
  - inversion E1; subst. apply (Q _ _ _ _ C2 E2).
  - apply (IH _ i j _ _ C2 E1 E2). lia.
Qed.
Lemma contiguous_find (gs : list group) : forall s row, contiguous s gs -> s <= row < s + list_sum (map g_count gs) -> exists k (g : group), nth_error gs k = Some g /\ g_start g <= row < g_start g + g_count g.
Proof.
  induction gs as [|x gs IH]; intros s row C L; [cbn in L; lia|]. destruct C as [C1 C2]. change (list_sum (map g_count (x :: gs))) with (g_count x + list_sum (map g_count gs)) in L.
  destruct (lt_dec row (s + g_count x)) as [Q|Q]; [exists 0, x; cbn; split; [reflexivity|lia]|]. destruct (IH _ row C2 ltac:(lia)) as (k & g & E & H). exists (S k), g. auto.
Qed.
Lemma contiguous_bound (gs : list group) : forall s j (h : group), contiguous s gs -> nth_error gs j = Some h -> s <= g_start h /\ g_start h + g_count h <= s + list_sum (map g_count gs).
Proof.
  induction gs as [|x gs IH]; intros s j h C E; [destruct j; discriminate E|]. destruct C as [C1 C2]. change (list_sum (map g_count (x :: gs))) with (g_count x + list_sum (map g_count gs)).
  destruct j as [|j]; cbn in E; [inversion E; subst; lia|]. specialize (IH _ _ _ C2 E). lia.
Qed.

Lemma bsearch_found (gs : list group) row k g s : contiguous s gs -> nth_error gs k = Some g -> g_start g <= row < g_start g + g_count g -> (N.of_nat (length gs) < 2 ^ 63)%N ->
  forall fuel lo up, lo <= k <= up -> up < length gs -> up - lo < fuel -> bsearch fuel gs (N.of_nat lo) (N.of_nat up) (N.of_nat row) = Ok (Some k).
Proof.
  intros C E R B. induction fuel as [|fuel IH]; intros lo up K U F; [lia|]. cbn [bsearch].
  replace (N.of_nat lo <=? N.of_nat up)%N with true by lia.
  assert (ID : (((N.of_nat lo + N.of_nat up) mod 2 ^ 64) / 2)%N = N.of_nat ((lo + up) / 2)).
  { rewrite N.mod_small by lia. rewrite <- Nat2N.inj_add, Nat2N.inj_div. reflexivity. }
  rewrite ID. set (i := (lo + up) / 2). assert (Hi : lo <= i <= up) by (subst i; split; [apply Nat.div_le_lower_bound; lia|apply Nat.div_le_upper_bound; lia]).
  replace (N.of_nat i <? N.of_nat (length gs))%N with true by lia. rewrite Nat2N.id.
  destruct (nth_error gs i) as [x|] eqn:Ei; [|apply nth_error_None in Ei; lia].
  destruct (lt_eq_lt_dec i k) as [[H|H]|H].
  - pose proof (contiguous_nth gs s i k x g C Ei E H). replace (N.of_nat row <? N.of_nat (g_start x))%N with false by lia. replace (N.of_nat (g_start x + g_count x) <=? N.of_nat row)%N with true by lia.
    rewrite N.mod_small by lia. replace (N.of_nat i + 1)%N with (N.of_nat (S i)) by lia. apply IH; lia.
  - subst k. rewrite Ei in E. inversion E; subst x. replace (N.of_nat row <? N.of_nat (g_start g))%N with false by lia. replace (N.of_nat (g_start g + g_count g) <=? N.of_nat row)%N with false by lia. reflexivity.
  - pose proof (contiguous_nth gs s k i g x C E Ei H). replace (N.of_nat row <? N.of_nat (g_start x))%N with true by lia.
    replace ((N.of_nat i + (2 ^ 64 - 1)) mod 2 ^ 64)%N with (N.of_nat (i - 1)). 2:{ replace (N.of_nat i + (2 ^ 64 - 1))%N with (N.of_nat (i - 1) + 1 * 2 ^ 64)%N by lia. rewrite N.mod_add by lia. rewrite N.mod_small by lia. reflexivity. }
    apply IH; lia.
Qed.
Lemma bsearch_above (gs : list group) row s : contiguous s gs -> s + list_sum (map g_count gs) <= row -> (N.of_nat (length gs) < 2 ^ 63)%N ->
  forall fuel lo up, up = length gs - 1 -> 0 < length gs -> lo <= length gs -> length gs - lo < fuel -> bsearch fuel gs (N.of_nat lo) (N.of_nat up) (N.of_nat row) = Ok None.
Proof.
  intros C R B. induction fuel as [|fuel IH]; intros lo up U Z K F; [lia|]. cbn [bsearch].
  destruct (N.of_nat lo <=? N.of_nat up)%N eqn:Q; [|reflexivity].
  assert (ID : (((N.of_nat lo + N.of_nat up) mod 2 ^ 64) / 2)%N = N.of_nat ((lo + up) / 2)).
  { rewrite N.mod_small by lia. rewrite <- Nat2N.inj_add, Nat2N.inj_div. reflexivity. }
  rewrite ID. set (i := (lo + up) / 2). assert (Hi : lo <= i <= up) by (subst i; split; [apply Nat.div_le_lower_bound; lia|apply Nat.div_le_upper_bound; lia]).
  replace (N.of_nat i <? N.of_nat (length gs))%N with true by lia. rewrite Nat2N.id.
  destruct (nth_error gs i) as [x|] eqn:Ei; [|apply nth_error_None in Ei; lia]. pose proof (contiguous_bound gs s i x C Ei).
  replace (N.of_nat row <? N.of_nat (g_start x))%N with false by lia. replace (N.of_nat (g_start x + g_count x) <=? N.of_nat row)%N with true by lia.
  rewrite N.mod_small by lia. replace (N.of_nat i + 1)%N with (N.of_nat (S i)) by lia. apply IH; lia.
Qed.
(** a row before the first group: the upper bound becomes -1 *)
Lemma bsearch_below (gs : list group) row s : contiguous s gs -> row < s -> (N.of_nat (length gs) < 2 ^ 63)%N ->
  forall fuel up, up < length gs -> S up < fuel -> bsearch fuel gs 0 (N.of_nat up) (N.of_nat row) = Err UB.
Proof.
  intros C R B. induction fuel as [|fuel IH]; intros up U F; [lia|]. cbn [bsearch].
  replace (0 <=? N.of_nat up)%N with true by lia.
  assert (ID : (((0 + N.of_nat up) mod 2 ^ 64) / 2)%N = N.of_nat (up / 2)).
  { rewrite N.mod_small by lia. rewrite N.add_0_l, Nat2N.inj_div. reflexivity. }
  rewrite ID. set (i := up / 2). assert (Hi : i <= up) by (subst i; apply Nat.div_le_upper_bound; lia).
  replace (N.of_nat i <? N.of_nat (length gs))%N with true by lia. rewrite Nat2N.id.
  destruct (nth_error gs i) as [x|] eqn:Ei; [|apply nth_error_None in Ei; lia]. pose proof (contiguous_bound gs s i x C Ei).
  replace (N.of_nat row <? N.of_nat (g_start x))%N with true by lia. destruct i as [|i'] eqn:EI.
  - destruct fuel as [|fuel]; [lia|]. cbn [bsearch]. clear IH. change ((N.of_nat 0 + (2 ^ 64 - 1)) mod 2 ^ 64)%N with (2 ^ 64 - 1)%N. change (0 <=? 2 ^ 64 - 1)%N with true. cbn [negb].
    change (((0 + (2 ^ 64 - 1)) mod 2 ^ 64 / 2)%N) with (2 ^ 63 - 1)%N. replace (2 ^ 63 - 1 <? N.of_nat (length gs))%N with false by lia. reflexivity.
  - replace ((N.of_nat (S i') + (2 ^ 64 - 1)) mod 2 ^ 64)%N with (N.of_nat i'). 2:{ replace (N.of_nat (S i') + (2 ^ 64 - 1))%N with (N.of_nat i' + 1 * 2 ^ 64)%N by lia. rewrite N.mod_add by lia. rewrite N.mod_small by lia. reflexivity. }
    apply IH; [lia|]. assert (2 * S i' <= up) by (rewrite <- EI; subst i; apply Nat.mul_div_le; lia). lia.
Qed.
Lemma layout_sum (c : coll) rows : layout c rows -> list_sum (map g_count (groups c)) = length rows.
Proof. intros (L1 & L2 & L3 & L4). rewrite sum_data, L4; [reflexivity|]. apply Forall_impl with (2 := L2). tauto. Qed.

Lemma concat_nth (gs : list group) : forall s row k (g : group), contiguous s gs -> Forall (fun g => length (g_data g) = g_count g) gs -> nth_error gs k = Some g -> g_start g <= row < g_start g + g_count g ->
  nth_error (g_data g) (row - g_start g) = nth_error (concat (map g_data gs)) (row - s).
Proof.
  induction gs as [|x gs IH]; intros s row k g C F E R; [destruct k; discriminate E|]. pose proof (contiguous_bound _ _ _ _ C E) as BB. destruct C as [C1 C2]. inversion F as [|? ? F1 F2]; subst. cbn [map concat]. destruct k as [|k]; cbn in E.
  - inversion E; subst. rewrite nth_error_app1 by lia. reflexivity.
  - pose proof (contiguous_bound _ _ _ _ C2 E). rewrite nth_error_app2 by lia. rewrite (IH _ row k g C2 F2 E R). f_equal. lia.
Qed.
Lemma lookup_in (c : coll) rows row : layout c rows -> (N.of_nat (length (groups c)) < 2 ^ 63)%N -> row_start c <= row < row_start c + length rows ->
  exists k g, lookup (groups c) row = Ok (Some k) /\ nth_error (groups c) k = Some g /\ g_start g <= row < g_start g + g_count g /\
   nth_error (g_data g) (row - g_start g) = nth_error rows (row - row_start c).
Proof.
  intros L B R. pose proof (layout_sum _ _ L) as SM. destruct L as (L1 & L2 & L3 & L4). destruct (contiguous_find _ _ row L1 ltac:(lia)) as (k & g & E & H). exists k, g. split; [|split; [exact E|split; [exact H|]]].
  - unfold lookup. destruct (groups c) as [|x gs] eqn:G; [destruct k; discriminate E|]. rewrite <- G in *. assert (E' : k < length (groups c)) by (apply nth_error_Some; congruence). change 0%N with (N.of_nat 0). eapply bsearch_found; eauto; lia.
  - rewrite <- L4. eapply concat_nth; eauto. apply Forall_impl with (2 := L2). tauto.
Qed.
Lemma lookup_out (c : coll) rows row : layout c rows -> (N.of_nat (length (groups c)) < 2 ^ 63)%N -> row_start c + length rows <= row -> lookup (groups c) row = Ok None.
Proof.
  intros L B R. pose proof (layout_sum _ _ L) as SM. destruct L as (L1 & L2 & L3 & L4). unfold lookup. destruct (groups c) as [|x gs] eqn:G; [reflexivity|]. rewrite <- G in *. change 0%N with (N.of_nat 0). eapply bsearch_above; eauto; try lia. rewrite G. cbn. lia.
Qed.
Lemma lookup_below (c : coll) rows row : layout c rows -> (N.of_nat (length (groups c)) < 2 ^ 63)%N -> groups c <> [] -> row < row_start c -> lookup (groups c) row = Err UB.
Proof.
  intros (L1 & L2 & L3 & L4) B NE R. unfold lookup. destruct (groups c) as [|x gs] eqn:G; [congruence|]. rewrite <- G in *. assert (0 < length (groups c)) by (rewrite G; cbn; lia). eapply bsearch_below; eauto; lia.
Qed.
Lemma lookup_unique (c : coll) rows row k g : layout c rows -> nth_error (groups c) k = Some g -> g_start g <= row < g_start g + g_count g ->
  forall j h, nth_error (groups c) j = Some h -> g_start h <= row < g_start h + g_count h -> j = k.
Proof.
  intros (L1 & _) E R j h E' R'. destruct (lt_eq_lt_dec j k) as [[H|H]|H]; [|exact H|].
  - pose proof (contiguous_nth _ _ _ _ _ _ L1 E' E H). lia.
  - pose proof (contiguous_nth _ _ _ _ _ _ L1 E E' H). lia.
Qed.
Fixpoint pick (rows : list A) (s : nat) (ids : list nat) : list A :=
  match ids with [] => [] | i :: r => match nth_error rows (i - s) with Some a => a :: pick rows s r | None => pick rows s r end end.
Lemma fetch_ok (c : coll) rows ids : layout c rows -> (N.of_nat (length (groups c)) < 2 ^ 63)%N -> Forall (fun i => row_start c <= i) ids -> fetch_rows c ids = Ok (pick rows (row_start c) ids).
Proof.
  intros L B. induction ids as [|i ids IH]; intros F; cbn [fetch_rows pick]; [reflexivity|]. inversion F as [|? ? F1 F2]; subst. specialize (IH F2).
  destruct (lt_dec i (row_start c + length rows)) as [Q|Q].
  - destruct (lookup_in c rows i L B ltac:(lia)) as (k & g & -> & E & R & D). cbn [rbind]. rewrite E, D. destruct (nth_error rows (i - row_start c)) eqn:N; [|apply nth_error_None in N; lia]. rewrite IH. reflexivity.
  - rewrite (lookup_out c rows i L B) by lia. cbn [rbind]. rewrite IH. replace (nth_error rows (i - row_start c)) with (@None A); [reflexivity|]. symmetry. apply nth_error_None. lia.
Qed.

(** *** deleting rows by their ids *)
Lemma upd_nth {B} (l : list B) : forall k x j, k < length l -> nth_error (upd l k x) j = if j =? k then Some x else nth_error l j.
Proof. induction l as [|y l IH]; intros k x j H; [cbn in H; lia|]. destruct k as [|k], j as [|j]; cbn; try reflexivity. apply IH. cbn in H. lia. Qed.
Lemma upd_length {B} (l : list B) : forall k x, length (upd l k x) = length l.
Proof. induction l as [|y l IH]; intros [|k] x; cbn; auto. Qed.
Lemma map_upd {B C} (f : B -> C) (l : list B) : forall k x y, nth_error l k = Some y -> f x = f y -> map f (upd l k x) = map f l.
Proof. induction l as [|z l IH]; intros [|k] x y E H; cbn in *; try discriminate; [inversion E; subst; congruence|]. rewrite (IH k x y E H). reflexivity. Qed.
Lemma Forall_nth {B} (P : B -> Prop) l : Forall P l <-> forall j x, nth_error l j = Some x -> P x.
Proof.
  split; [intros H j x E; eapply Forall_forall; [exact H|]; eapply nth_error_In; exact E|].
  induction l as [|y l IH]; intros H; constructor; [apply (H 0 y eq_refl)|]. apply IH. intros j x E. apply (H (S j) x E).
Qed.
Lemma contiguous_ext (gs gs' : list group) : map (fun g => (g_start g, g_count g)) gs = map (fun g => (g_start g, g_count g)) gs' -> forall s, contiguous s gs -> contiguous s gs'.
Proof.
  revert gs'. induction gs as [|g gs IH]; intros [|g' gs'] E s C; cbn in *; try discriminate; auto. injection E as E1 E2 E3. destruct C as [C1 C2]. split; [congruence|]. apply IH; congruence.
Qed.
Lemma run_of_spec (g : group) ids : forall a b, run_of g ids = (a, b) -> ids = a ++ b /\ Forall (fun i => in_group g i = true) a.
Proof.
  induction ids as [|i ids IH]; intros a b E; cbn in E; [inversion E; subst; auto|]. destruct (in_group g i) eqn:Q; [|inversion E; subst; auto].
  destruct (run_of g ids) as [a' b'] eqn:E'. inversion E; subst. destruct (IH _ _ eq_refl) as [-> F]. split; [reflexivity|]. constructor; assumption.
Qed.

Lemma effect_ext n d ids o d' d'' : (forall r, d' r = d'' r) -> effect_on n d ids o d' -> effect_on n d ids o d''.
Proof.
  intros H. destruct o; cbn.
  - intros (X & Y & Z). csplit; auto. intros r. rewrite <- H. apply X.
  - intros (X & Y & Z). csplit; auto; intros r; rewrite <- H; auto.
Qed.
Lemma mem_app r a b : mem r (a ++ b) = mem r a || mem r b.
Proof. apply existsb_app. Qed.
Lemma effect_app n d a m d1 b o d2 : effect_on n d a (Some m) d1 -> effect_on n d1 b o d2 -> effect_on n d (a ++ b) (option_map (Nat.add m) o) d2.
Proof.
  intros (X1 & X2 & X3) Y. destruct o as [k|]; cbn [option_map effect_on] in *.
  - destruct Y as (Y1 & Y2 & Y3). csplit.
    + intros r. rewrite Y1, X1, mem_app, orb_assoc. reflexivity.
    + intros r Hr. apply in_app_iff in Hr. destruct Hr as [Hr|Hr]; [auto|]. destruct (Y2 r Hr) as [K1 K2]. rewrite X1 in K2. apply orb_false_iff in K2. tauto.
    + rewrite nodup_app_length; [lia|]. intros r H1 H2. destruct (Y2 r H2) as [_ K2]. rewrite X1 in K2. apply orb_false_iff in K2. destruct K2 as [_ K2]. apply mem_in in H1. congruence.
  - destruct Y as (Y1 & Y2 & Y3). csplit.
    + intros r Hr. apply Y1. rewrite X1, Hr. reflexivity.
    + intros r Hr. destruct (Y2 r Hr) as [K|K]; [|right; apply in_app_iff; auto]. rewrite X1 in K. apply orb_true_iff in K. destruct K as [K|K]; [auto|]. right. apply in_app_iff. left. apply mem_in, K.
    + destruct Y3 as [(r & Hr & [K|K])|K].
      * rewrite X1 in K. apply orb_true_iff in K. destruct K as [K|K]; [left; exists r; split; [apply in_app_iff; auto|auto]|]. right. intros ND. apply NoDup_app_parts in ND. destruct ND as (_ & _ & ND). apply mem_in in K. apply (ND r K Hr).
      * left. exists r. split; [apply in_app_iff; auto|auto].
      * right. intros ND. apply NoDup_app_parts in ND. apply K, ND.
Qed.
Lemma effect_fail n d a d1 b : effect_on n d a None d1 -> effect_on n d (a ++ b) None d1.
Proof.
  intros (X1 & X2 & X3). cbn. csplit; auto.
  - intros r Hr. destruct (X2 r Hr); [auto|]. right. apply in_app_iff. auto.
  - destruct X3 as [(r & H1 & H2)|X3]; [left; exists r; split; [apply in_app_iff; auto|auto]|right]. intros ND. apply NoDup_app_parts in ND. apply X3, ND.
Qed.

Lemma nodup_shift s (l : list nat) : length (nodup Nat.eq_dec (map (fun i => s + i) l)) = length (nodup Nat.eq_dec l).
Proof.
  rewrite <- (map_length (fun i => s + i) (nodup _ l)). apply same_length.
  - apply NoDup_nodup.
  - apply FinFun.Injective_map_NoDup; [intros x y; lia|apply NoDup_nodup].
  - intros x. rewrite nodup_In, !in_map_iff. split; intros (y & E & H); exists y; (split; [exact E|]); [apply nodup_In, H|apply nodup_In in H; exact H].
Qed.
Lemma shift_back s (l : list nat) : Forall (fun i => s <= i) l -> map (fun i => s + i) (map (fun i => i - s) l) = l.
Proof. induction 1 as [|i l H F IH]; cbn; [reflexivity|]. rewrite IH. f_equal. lia. Qed.
Definition glue (g : group) (d dl : nat -> bool) : nat -> bool := fun r => if in_group g r then dl (r - g_start g) else d r.
Lemma local_effect (g : group) n d a o dl : g_start g + g_count g <= n -> Forall (fun i => in_group g i = true) a ->
  effect (loc d g) (map (fun i => i - g_start g) a) o dl -> effect_on n d a o (glue g d dl).
Proof.
  intros N F E. assert (Fs : Forall (fun i => g_start g <= i) a) by (apply Forall_impl with (2 := F); unfold in_group; intros; lia).
  assert (IN : forall r, in_group g r = true -> loc d g (r - g_start g) = d r). { intros r H. unfold in_group in H. unfold loc. replace (r - g_start g <? g_count g) with true by lia. cbn. f_equal. lia. }
  assert (MM : forall r, in_group g r = true -> (In (r - g_start g) (map (fun i => i - g_start g) a) <-> In r a)).
  { intros r H. unfold in_group in H. rewrite in_map_iff. split; [|intros K; eauto]. intros (x & E1 & E2). rewrite Forall_forall in Fs. specialize (Fs x E2). replace r with x by lia. exact E2. }
  rewrite Forall_forall in F.
  destruct o as [k|]; cbn [effect effect_on] in *; unfold glue.
  - destruct E as (E1 & E2 & E3). csplit.
    + intros r. destruct (in_group g r) eqn:Q.
      * rewrite E1, IN by exact Q. f_equal. destruct (mem r a) eqn:M; [apply mem_in, MM, mem_in; assumption|]. destruct (mem (r - g_start g) _) eqn:M'; [|reflexivity]. apply mem_in, MM, mem_in in M'; congruence.
      * destruct (mem r a) eqn:M; [|rewrite orb_false_r; reflexivity]. apply mem_in in M. rewrite (F r M) in Q. discriminate.
    + intros r Hr. specialize (F r Hr). split; [unfold in_group in F; lia|]. rewrite <- IN by exact F. apply E2, MM; assumption.
    + rewrite E3. rewrite <- (nodup_shift (g_start g)), shift_back by exact Fs. reflexivity.
  - destruct E as (E1 & E2 & E3). csplit.
    + intros r Hr. destruct (in_group g r) eqn:Q; [|exact Hr]. apply E1. rewrite IN; assumption.
    + intros r Hr. destruct (in_group g r) eqn:Q; [|auto]. destruct (E2 _ Hr) as [K|K]; [rewrite IN in K by exact Q; auto|]. right. apply MM; assumption.
    + destruct E3 as [(r & H1 & H2)|H].
      * left. apply in_map_iff in H1. destruct H1 as (x & <- & H1). exists x. split; [exact H1|]. left. rewrite <- IN; [exact H2|auto].
      * right. intros ND. apply H. clear - ND Fs. rewrite <- (shift_back _ _ Fs) in ND. apply NoDup_map_inv in ND. exact ND.
Qed.

Lemma glue_inv c rows d w k g g' dl w' : Inv c rows d w -> nth_error (groups c) k = Some g -> r_count g' = g_count g -> (ver g' <= w')%N -> (w <= w')%N ->
  GI g' dl -> (forall r, dl r = true -> r < g_count g) -> Inv (with_groups c (upd (groups c) k (set_del g g'))) rows (glue g d dl) w'.
Proof.
  intros I E RC V W G D. pose proof I as (Z & L & Dn & GV). pose proof (layout_sum _ _ L) as SM. destruct L as (L1 & L2 & L3 & L4).
  assert (K : k < length (groups c)) by (apply nth_error_Some; congruence).
  assert (EX : forall (B : Type) (f : group -> B), f (set_del g g') = f g -> map f (upd (groups c) k (set_del g g')) = map f (groups c)) by (intros B f H; apply (map_upd f _ _ _ _ E H)).
  unfold Inv, layout, with_groups. cbn [gsize row_start total groups]. csplit.
  - exact Z.
  - eapply contiguous_ext; [|exact L1]. symmetry. apply EX. unfold g_count, set_del. cbn. rewrite RC. reflexivity.
  - apply Forall_nth. intros j x H. rewrite upd_nth in H by exact K. destruct (j =? k).
    + inversion H; subst. unfold set_del, g_count at 1 2. cbn [g_del g_data]. rewrite RC. exact (proj1 (Forall_nth _ _) L2 k g E).
    + exact (proj1 (Forall_nth _ _) L2 j x H).
  - exact L3.
  - rewrite EX by reflexivity. exact L4.
  - intros r Hr. unfold glue. pose proof (contiguous_bound _ _ _ _ L1 E). replace (in_group g r) with false by (unfold in_group; lia). apply Dn, Hr.
  - apply Forall_nth. intros j x H. rewrite upd_nth in H by exact K. destruct (j =? k) eqn:Q.
    + inversion H; subst. unfold set_del. cbn [g_del]. split; [|exact V]. eapply GI_ext; [|exact G]. intros r. unfold loc, g_count at 1. cbn [g_del g_start]. rewrite RC. unfold glue, in_group.
      replace (g_start g <=? g_start g + r) with true by lia. cbn [andb]. replace (g_start g + r - g_start g) with r by lia. destruct (r <? g_count g) eqn:Q2.
      * replace (g_start g + r <? g_start g + g_count g) with true by lia. reflexivity.
      * cbn. destruct (dl r) eqn:Q3; [|reflexivity]. specialize (D r Q3). lia.
    + destruct (proj1 (Forall_nth _ _) GV j x H) as [X1 X2]. split; [|lia]. eapply GI_ext; [|exact X1]. intros r. unfold loc. destruct (r <? g_count x) eqn:Q2; [|reflexivity]. cbn. unfold glue.
      replace (in_group g (g_start x + r)) with false; [reflexivity|]. unfold in_group. destruct (lt_eq_lt_dec j k) as [[C|C]|C]; [|lia|].
      * pose proof (contiguous_nth _ _ _ _ _ _ L1 H E C). lia.
      * pose proof (contiguous_nth _ _ _ _ _ _ L1 E H C). lia.
Qed.
Lemma Inv_weak c rows d w w' : (w <= w')%N -> Inv c rows d w -> Inv c rows d w'.
Proof. intros H (I1 & I2 & I3 & I4). split; [exact I1|]. split; [exact I2|]. split; [exact I3|]. apply Forall_impl with (2 := I4). intros g [X1 X2]. split; [exact X1|]. lia. Qed.
Lemma effect_bound (g : group) d a o dl : Forall (fun i => in_group g i = true) a -> effect (loc d g) (map (fun i => i - g_start g) a) o dl -> forall r, dl r = true -> r < g_count g.
Proof.
  intros F E r Hr. assert (K : loc d g r = true \/ In r (map (fun i => i - g_start g) a)).
  { destruct o; cbn in E; [|destruct E as (_ & E & _); apply E, Hr]. destruct E as (E & _). rewrite E in Hr. apply orb_true_iff in Hr. destruct Hr as [Hr|Hr]; [auto|]. right. apply mem_in, Hr. }
  destruct K as [K|K]; [unfold loc in K; lia|]. apply in_map_iff in K. destruct K as (x & <- & K). rewrite Forall_forall in F. specialize (F x K). unfold in_group in F. lia.
Qed.

Lemma del_sound : forall fuel ids c n rows d w c' o, Inv c rows d w -> row_start c = 0 -> (N.of_nat (length (groups c)) < 2 ^ 63)%N -> (w + 1 + N.of_nat (length ids) < NOT_DELETED_ID)%N ->
  del_rows fuel c ids n = Ok (c', o) -> exists d' o', Inv c' rows d' (w + N.of_nat (length ids)) /\ effect_on (length rows) d ids o' d' /\ o = option_map (Nat.add n) o' /\
    gsize c' = gsize c /\ row_start c' = 0 /\ map g_data (groups c') = map g_data (groups c).
Proof.
  induction fuel as [|fuel IH]; intros ids c n rows d w c' o I R B V E.
  { destruct ids; cbn in E; [|discriminate]. inversion E; subst. exists d, (Some 0). csplit; auto; [|cbn; csplit; auto; try (intros ? []); intros r; rewrite orb_false_r; reflexivity|cbn; f_equal; lia]. cbn. rewrite N.add_0_r. exact I. }
  destruct ids as [|id r].
  { cbn in E. inversion E; subst. exists d, (Some 0). csplit; auto; [|cbn; csplit; auto; try (intros ? []); intros r; rewrite orb_false_r; reflexivity|cbn; f_equal; lia]. cbn. rewrite N.add_0_r. exact I. }
  cbn [del_rows] in E. pose proof I as (Z & L & Dn & GV).
  assert (WK : Inv c rows d (w + N.of_nat (length (id :: r)))).
  { eapply Inv_weak; [|exact I]. lia. }
  destruct (lt_dec id (length rows)) as [Q|Q].
  2:{ rewrite (lookup_out c rows id L B) in E by lia. cbn [rbind] in E. inversion E; subst. exists d, None. csplit; auto. cbn. csplit; auto. left. exists id. split; [auto|]. right. lia. }
  destruct (lookup_in c rows id L B ltac:(lia)) as (k & g & LK & EK & RK & _). rewrite LK in E. cbn [rbind] in E. rewrite EK in E.
  destruct (run_of g r) as [mine others] eqn:RO. apply run_of_spec in RO. destruct RO as [-> FM].
  assert (FA : Forall (fun i => in_group g i = true) (id :: mine)) by (constructor; [unfold in_group; lia|exact FM]).
  destruct (proj1 (Forall_nth _ _) GV k g EK) as [G1 G2].
  destruct (rg_delete (g_del g) (map (fun i => i - g_start g) (id :: mine))) as [[g1 o1]|] eqn:E1; [|discriminate].
  assert (LEN : length (map (fun i => i - g_start g) (id :: mine)) = length (id :: mine)) by apply map_length.
  change (id :: mine ++ others) with ((id :: mine) ++ others) in *. rewrite app_length in V.
  destruct (delete_sound (g_del g) (loc d g) _ g1 o1 G1 ltac:(rewrite LEN; lia) E1) as (V1 & RC1 & dl & GI1 & EF1). rewrite LEN in V1. cbn [rbind] in E.
  assert (EFG := local_effect g (length rows) d (id :: mine) o1 dl ltac:(pose proof (contiguous_bound _ _ _ _ (proj1 L) EK); rewrite (layout_sum _ _ L) in *; lia) FA EF1).
  assert (I1 := glue_inv c rows d w k g g1 dl (w + N.of_nat (length (id :: mine))) I EK RC1 ltac:(lia) ltac:(lia) GI1 (effect_bound g d _ _ dl FA EF1)).
  assert (DT : map g_data (upd (groups c) k (set_del g g1)) = map g_data (groups c)) by (apply (map_upd _ _ _ _ g EK); reflexivity).
  destruct o1 as [m|].
  - destruct (IH others _ (n + m) rows _ _ c' o I1 R) as (d2 & o2 & I2 & EF2 & EO & S2 & R2 & DT2).
    { cbn [with_groups groups]. rewrite upd_length. exact B. } { lia. } { exact E. }
    exists d2, (option_map (Nat.add m) o2). csplit; auto.
    + rewrite app_length, Nat2N.inj_add, N.add_assoc. exact I2.
    + eapply effect_app; eassumption.
    + rewrite EO. destruct o2; cbn; [|reflexivity]. f_equal. lia.
    + cbn [with_groups groups] in DT2. congruence.
  - inversion E; subst. exists (glue g d dl), None. csplit; auto.
    + eapply Inv_weak; [|exact I1]. rewrite app_length. lia.
    + apply effect_fail. exact EFG.
Qed.

Lemma del_total : forall fuel ids c n rows d w, Inv c rows d w -> row_start c = 0 -> (N.of_nat (length (groups c)) < 2 ^ 63)%N -> (w + 1 + N.of_nat (length ids) < NOT_DELETED_ID)%N ->
  length ids <= fuel -> NoDup ids -> (forall r, In r ids -> r < length rows /\ d r = false) -> exists c', del_rows fuel c ids n = Ok (c', Some (n + length ids)).
Proof.
  induction fuel as [|fuel IH]; intros ids c n rows d w I R B V F ND H.
  { destruct ids; [|cbn in F; lia]. exists c. cbn. rewrite Nat.add_0_r. reflexivity. }
  destruct ids as [|id r]. { exists c. cbn. rewrite Nat.add_0_r. reflexivity. }
  cbn [del_rows]. pose proof I as (Z & L & Dn & GV). destruct (H id (or_introl eq_refl)) as [Q Q'].
  destruct (lookup_in c rows id L B ltac:(lia)) as (k & g & LK & EK & RK & _). rewrite LK. cbn [rbind]. rewrite EK.
  destruct (run_of g r) as [mine others] eqn:RO. apply run_of_spec in RO. destruct RO as [-> FM].
  assert (FA : Forall (fun i => in_group g i = true) (id :: mine)) by (constructor; [unfold in_group; lia|exact FM]).
  destruct (proj1 (Forall_nth _ _) GV k g EK) as [G1 G2].
  assert (LEN : length (map (fun i => i - g_start g) (id :: mine)) = length (id :: mine)) by apply map_length.
  change (id :: mine ++ others) with ((id :: mine) ++ others) in *. rewrite app_length in V, F.
  assert (Fs : Forall (fun i => g_start g <= i) (id :: mine)) by (apply Forall_impl with (2 := FA); unfold in_group; intros; lia).
  pose proof (NoDup_app_parts _ _ ND) as (ND1 & ND2 & ND3).
  destruct (delete_live (g_del g) (loc d g) (map (fun i => i - g_start g) (id :: mine)) G1) as (g1 & E1 & _).
  { rewrite LEN. lia. } { apply Forall_map. apply Forall_impl with (2 := FA). unfold in_group, g_count. intros; lia. }
  { rewrite <- (shift_back _ _ Fs) in ND1. apply NoDup_map_inv in ND1. exact ND1. }
  { intros x Hx. apply in_map_iff in Hx. destruct Hx as (y & <- & Hy). rewrite Forall_forall in Fs. specialize (Fs y Hy). unfold loc. replace (g_start g + (y - g_start g)) with y by lia. rewrite (proj2 (H y ltac:(apply in_app_iff; auto))). apply andb_false_r. }
  rewrite E1. cbn [rbind]. rewrite LEN.
  destruct (delete_sound (g_del g) (loc d g) _ g1 _ G1 ltac:(rewrite LEN; lia) E1) as (V1 & RC1 & dl & GI1 & EF1). rewrite LEN in V1.
  assert (I1 := glue_inv c rows d w k g g1 dl (w + N.of_nat (length (id :: mine))) I EK RC1 ltac:(lia) ltac:(lia) GI1 (effect_bound g d _ _ dl FA EF1)).
  assert (EFG := local_effect g (length rows) d (id :: mine) _ dl ltac:(pose proof (contiguous_bound _ _ _ _ (proj1 L) EK); rewrite (layout_sum _ _ L) in *; lia) FA EF1).
  destruct (IH others (with_groups c (upd (groups c) k (set_del g g1))) (n + length (id :: mine)) rows _ _ I1 R) as (c2 & E2).
  { cbn [with_groups groups]. rewrite upd_length. exact B. } { lia. } { cbn [length] in F. lia. } { exact ND2. }
  { intros x Hx. split; [apply H; apply in_app_iff; auto|]. destruct EFG as (EFG & _). rewrite EFG. rewrite (proj2 (H x ltac:(apply in_app_iff; auto))). cbn [orb]. destruct (mem x (id :: mine)) eqn:M; [|reflexivity]. apply mem_in in M. destruct (ND3 x M Hx). }
  exists c2. rewrite E2, app_length. rewrite Nat.add_assoc. reflexivity.
Qed.

(** *** sequences of insertions and deletions *)
Definition shape (c : coll) : Prop := groups c = [] \/ fbl (gsize c) (groups c).
Lemma fbl_data size (gs gs' : list group) : map g_data gs = map g_data gs' -> fbl size gs -> fbl size gs'.
Proof.
  revert gs'. induction gs as [|g gs IH]; intros [|g' gs'] E F; try discriminate E; [destruct F|]. cbn [map] in E. injection E as E1 E2. cbn [fbl] in *. rewrite <- E1. destruct gs as [|x gs], gs' as [|x' gs']; try discriminate E2; [exact F|]. split; [apply F|]. apply IH; [exact E2|apply F].
Qed.
Lemma fbl_len size (gs : list group) : 0 < size -> fbl size gs -> length gs <= length (concat (map g_data gs)) + 1.
Proof.
  intros Z. induction gs as [|g gs IH]; intros F; [destruct F|]. cbn [fbl] in F. cbn [map concat length]. rewrite app_length. destruct gs as [|x gs]; [cbn; lia|]. destruct F as [F1 F2]. specialize (IH F2). lia.
Qed.
Lemma insert_keeps c chunks c' rest : 0 < gsize c -> Forall (fun g => g_count g <= gsize c /\ length (g_data g) = g_count g) (groups c) -> shape c -> insert c chunks = Ok (c', rest) -> shape c'.
Proof.
  intros Z L2 SH E. destruct (insert_shape c chunks Z L2) as (pre & g0 & news & rest' & c'' & GD & E' & TO & G' & S' & R' & T'). rewrite E in E'. inversion E'; subst c'' rest'. right. rewrite G', S'.
  assert (F0 : fbl (gsize c) (pre ++ [g0])).
  { destruct GD as [GD|(GD & -> & ->)]; [|cbn; lia]. rewrite <- GD. destruct SH as [SH|SH]; [rewrite SH in GD; destruct pre; discriminate GD|exact SH]. }
  apply fbl_data with (gs := pre ++ news); [rewrite !map_app, map_map; reflexivity|]. eapply fbl_app; eassumption.
Qed.
Definition bound (rows : list A) (w : N) (l : list (act A)) : Prop :=
  (N.of_nat (length rows + new_rows l) + 1 < 2 ^ 63)%N /\ (w + 1 + N.of_nat (del_ids l) < NOT_DELETED_ID)%N.
Lemma shape_groups c rows d w : Inv c rows d w -> shape c -> (N.of_nat (length rows) + 1 < 2 ^ 63)%N -> (N.of_nat (length (groups c)) < 2 ^ 63)%N.
Proof. intros (Z & (_ & _ & _ & L4) & _) [->|F] B; [cbn; lia|]. apply fbl_len in F; [|exact Z]. rewrite L4 in F. lia. Qed.
Lemma acts_sound : forall l c rows d w c' os, Inv c rows d w -> row_start c = 0 -> shape c -> bound rows w l -> acts c l = Ok (c', os) ->
  exists rows' d' w', history rows d l os rows' d' /\ Inv c' rows' d' w' /\ gsize c' = gsize c /\ row_start c' = 0 /\ shape c' /\ (w' <= w + N.of_nat (del_ids l))%N /\ (N.of_nat (length rows') + 1 < 2 ^ 63)%N.
Proof.
  induction l as [|a l IH]; intros c rows d w c' os I R SH [B1 B2] E.
  - cbn in E. inversion E; subst. exists rows, d, w. split; [apply h_nil|]. change (new_rows []) with 0 in B1. change (del_ids []) with 0 in *. csplit; auto; lia.
  - destruct a as [chunks|ids]; cbn [acts] in E; unfold new_rows, del_ids in B1, B2; cbn [map] in B1, B2; change (list_sum (?x :: ?y)) with (x + list_sum y) in B1, B2; fold (new_rows l) in B1; fold (del_ids l) in B2.
    + destruct (insert_inv c chunks rows d w I) as (c1 & rest & E1 & I1 & S1 & R1). rewrite E1 in E. cbn [rbind] in E.
      assert (SH1 : shape c1) by (eapply insert_keeps; [apply I|apply I|exact SH|exact E1]).
      destruct (IH c1 _ d w c' os I1 ltac:(congruence) SH1) as (rows' & d' & w' & H & I' & S' & R' & SH' & W'); [split; [rewrite app_length|]; lia|exact E|].
      exists rows', d', w'. destruct W' as [W1 W2]. split; [apply h_ins; exact H|]. change (del_ids (Ins chunks :: l)) with (0 + del_ids l). split; [exact I'|]. split; [congruence|]. split; [exact R'|]. split; [exact SH'|]. split; [lia|exact W2].
    + destruct (delete_ids c ids) as [[c1 o]|] eqn:E1; [|discriminate]. cbn [rbind] in E. destruct (acts c1 l) as [[c2 os2]|] eqn:E2; [|discriminate]. cbn [rbind] in E. inversion E; subst.
      destruct (del_sound (length ids) ids c 0 rows d w c1 o I R) as (d1 & o1 & I1 & EF & EO & S1 & R1 & DT); [apply (shape_groups c rows d w I SH); lia|lia|exact E1|].
      assert (SH1 : shape c1). { destruct SH as [SH|SH]; [left|right]. - rewrite SH in DT. cbn in DT. destruct (groups c1); [reflexivity|discriminate DT]. - rewrite S1. eapply fbl_data; [|exact SH]. congruence. }
      destruct (IH c1 rows d1 (w + N.of_nat (length ids))%N c' os2 I1 R1 SH1) as (rows' & d' & w' & H & I' & S' & R' & SH' & W'); [split; lia|exact E2|].
      exists rows', d', w'. destruct W' as [W1 W2]. change (del_ids (Del ids :: l)) with (length ids + del_ids l). split; [replace o with o1 by (rewrite EO; destruct o1; reflexivity); eapply h_del; eassumption|].
      split; [exact I'|]. split; [congruence|]. split; [exact R'|]. split; [exact SH'|]. split; [lia|exact W2].
Qed.
Lemma Inv_new : Inv (@new_table A) [] none_deleted 0.
Proof. unfold Inv, layout, new_table. cbn [gsize row_start total groups]. pose proof CAP_big. csplit; cbn; auto. lia. Qed.

(** *** scanning *)
Definition pairs (s : nat) (l : list A) : list (nat * A) := combine (seq s (length l)) l.
Definition keep (d : nat -> bool) (q : list (nat * A)) : list (nat * A) := filter (fun p => negb (d (fst p))) q.
Lemma pairs_app s a b : pairs s (a ++ b) = pairs s a ++ pairs (s + length a) b.
Proof.
  unfold pairs. revert s. induction a as [|x a IH]; intros s; cbn; [rewrite Nat.add_0_r; reflexivity|]. rewrite IH. replace (S s + length a) with (s + S (length a)) by lia. reflexivity.
Qed.
Lemma pairs_fst s l : map fst (pairs s l) = seq s (length l).
Proof. unfold pairs. revert s. induction l as [|x l IH]; intros s; cbn; [reflexivity|]. rewrite IH. reflexivity. Qed.
Lemma pairs_snd s l : map snd (pairs s l) = l.
Proof. unfold pairs. revert s. induction l as [|x l IH]; intros s; cbn; [reflexivity|]. rewrite IH. reflexivity. Qed.
Lemma pairs_nth l : forall s p a, In (p, a) (pairs s l) -> s <= p < s + length l /\ nth_error l (p - s) = Some a.
Proof.
  induction l as [|x l IH]; intros s p a H; [destruct H|]. change (In (p, a) ((s, x) :: pairs (S s) l)) in H. cbn [length]. destruct H as [H|H].
  - inversion H; subst. rewrite Nat.sub_diag. cbn. split; [lia|reflexivity].
  - destruct (IH _ _ _ H) as [H1 H2]. split; [lia|]. replace (p - s) with (S (p - S s)) by lia. exact H2.
Qed.
Lemma map_fst_filter (f : nat -> bool) (q : list (nat * A)) : map fst (filter (fun p => f (fst p)) q) = filter f (map fst q).
Proof. induction q as [|[p a] q IH]; cbn; [reflexivity|]. destruct (f p); cbn; rewrite IH; reflexivity. Qed.
Lemma gather_ok (l : list A) q : (forall p a, In (p, a) q -> nth_error l p = Some a) -> gather l (map fst q) = Ok (map snd q).
Proof. induction q as [|[p a] q IH]; intros H; cbn; [reflexivity|]. rewrite (H p a (or_introl eq_refl)). rewrite IH; [reflexivity|]. intros; apply H; right; assumption. Qed.
Lemma filter_pos_ok (g : group) f q : g_start g = 0 -> (forall p a, In (p, a) q -> nth_error (g_data g) p = Some a) -> filter_positions g f (map fst q) = Ok (map fst (filter (fun p => f (snd p)) q)).
Proof.
  intros S. induction q as [|[p a] q IH]; intros H; cbn; [reflexivity|]. rewrite S. cbn. rewrite Nat.sub_0_r, (H p a (or_introl eq_refl)). rewrite IH by (intros; apply H; right; assumption). cbn [rbind]. destruct (f a); reflexivity.
Qed.

Lemma rows_shift s d (l : list A) e : (forall r, r < length l -> e r = d (s + r)) -> map snd (keep e (pairs 0 l)) = map snd (keep d (pairs s l)).
Proof.
  intros H. assert (G : forall l t, (forall r, t <= r < t + length l -> e r = d (s + r)) -> map snd (keep e (pairs t l)) = map snd (keep d (pairs (s + t) l))).
  { clear. induction l as [|x l IH]; intros t H; [reflexivity|]. change (pairs t (x :: l)) with ((t, x) :: pairs (S t) l). change (pairs (s + t) (x :: l)) with ((s + t, x) :: pairs (S (s + t)) l). cbn [keep filter fst].
    cbn [length] in H. rewrite H by lia. specialize (IH (S t) ltac:(intros; apply H; lia)). replace (s + S t) with (S (s + t)) in IH by lia. unfold keep in IH. destruct (negb (d (s + t))); cbn [map]; rewrite IH; reflexivity. }
  rewrite G; [rewrite Nat.add_0_r; reflexivity|]. intros r Hr. apply H. lia.
Qed.
Definition glive (d : nat -> bool) (g : group) : list A := map snd (keep (loc d g) (pairs 0 (g_data g))).
Lemma live_groups d (gs : list group) : forall s, contiguous s gs -> Forall (fun g => length (g_data g) = g_count g) gs ->
  concat (map (glive d) gs) = map snd (keep d (pairs s (concat (map g_data gs)))).
Proof.
  induction gs as [|g gs IH]; intros s C F; [reflexivity|]. destruct C as [C1 C2]. inversion F as [|? ? F1 F2]; subst. cbn [map concat]. rewrite pairs_app. unfold keep. rewrite filter_app, map_app. rewrite F1. rewrite (IH _ C2 F2). f_equal.
  unfold glive. apply rows_shift. intros r Hr. unfold loc. replace (r <? g_count g) with true by lia. reflexivity.
Qed.

(** one group of at most 1024 rows; [done_at] is the state after its only chunk *)
Lemma sel_ok d (g : group) : GI (g_del g) (loc d g) -> (ver (g_del g) < NOT_DELETED_ID)%N -> length (g_data g) = g_count g -> g_count g <= CAP ->
  rg_select (g_del g) 0 (g_count g) = map fst (keep (loc d g) (pairs 0 (g_data g))).
Proof.
  intros G V L B. rewrite (select_sound _ (loc d g)) by assumption. unfold keep. rewrite (map_fst_filter (fun r => negb (loc d g r))), pairs_fst, L. reflexivity.
Qed.
Lemma past (g : group) f k cpos : g_count g <= CAP -> scan_group (S k) g f 1 (g_count g) cpos = Ok (None, 1, cpos).
Proof. intros H. cbn [scan_group]. replace (g_count g <=? 1 * CAP) with true by lia. reflexivity. Qed.
Definition wanted (f : option (A -> bool)) (q : list (nat * A)) : list (nat * A) := filter (fun p => satisfies f (snd p)) q.

Lemma scan_group_ok d (g : group) f k : GI (g_del g) (loc d g) -> (ver (g_del g) < NOT_DELETED_ID)%N -> length (g_data g) = g_count g -> g_count g <= CAP ->
  (f <> None -> g_start g = 0) ->
  let q := wanted f (keep (loc d g) (pairs 0 (g_data g))) in
  (q = [] -> exists vec, scan_group (S (S k)) g f 0 (g_count g) 0 = Ok (None, vec, 0)) /\
  (q <> [] -> scan_group (S (S k)) g f 0 (g_count g) 0 =
     Ok (Some {| flat := match f with None => length q =? g_count g | Some _ => false end; sel := map fst q; out := map snd q |}, 1, g_count g)).
Proof.
  intros G V L B S0 q. assert (CB := CAP_big).
  assert (IN : forall p a, In (p, a) (keep (loc d g) (pairs 0 (g_data g))) -> nth_error (g_data g) p = Some a).
  { intros p a H. apply filter_In in H. destruct H as [H _]. apply pairs_nth in H. rewrite Nat.sub_0_r in H. apply H. }
  destruct (g_count g) as [|c0] eqn:EC.
  { destruct (g_data g) eqn:ED; [|cbn in L; lia]. split; [intros _; exists 0; reflexivity|]. intros H. exfalso. apply H. unfold q. destruct f; reflexivity. }
  rewrite <- EC in *. remember (S k) as k' eqn:EK.
  cbn [scan_group]. replace (g_count g <=? 0 * CAP) with false by lia. replace (Nat.min CAP (g_count g - 0 * CAP)) with (g_count g) by lia.
  rewrite (sel_ok d g G V L B), map_length. replace (Nat.min CAP (length (g_data g) - 0 * CAP)) with (g_count g) by lia. cbn [skipn]. assert (FA : firstn (g_count g) (g_data g) = g_data g) by (rewrite <- L, firstn_all; reflexivity). rewrite FA.
  unfold q. destruct (keep (loc d g) (pairs 0 (g_data g))) as [|x q0] eqn:EQ.
  { cbn [length Nat.eqb]. split; [|intros H; exfalso; apply H; destruct f; reflexivity]. intros _. exists 1. subst k'. apply past. exact B. }
  rewrite <- EQ in *. replace (length (keep (loc d g) (pairs 0 (g_data g))) =? 0) with false by (rewrite EQ; reflexivity). destruct f as [f|]; cbn [wanted satisfies].
  - rewrite (filter_pos_ok g f) by (auto; apply S0; discriminate). cbn [rbind]. unfold wanted. cbn [satisfies].
    assert (GA : forall q', (forall p a, In (p, a) q' -> In (p, a) (keep (loc d g) (pairs 0 (g_data g)))) -> gather (g_data g) (map fst q') = Ok (map snd q')).
    { intros q' H. apply gather_ok. intros p a H'. apply IN, H, H'. }
    specialize (GA (filter (fun p => f (snd p)) (keep (loc d g) (pairs 0 (g_data g))))). rewrite GA by (intros p a H; apply filter_In in H; apply H). clear GA. destruct (filter (fun p => f (snd p)) _) as [|y q1] eqn:E1; cbn [map].
    + split; [|congruence]. intros _. exists 1. subst k'. apply past. exact B.
    + split; [discriminate|]. intros _. reflexivity.
  - assert (W : wanted None (keep (loc d g) (pairs 0 (g_data g))) = keep (loc d g) (pairs 0 (g_data g))) by (unfold wanted; apply filter_all; reflexivity).
    rewrite W. split; [intros H; rewrite H in EQ; discriminate|]. intros _. destruct (length _ =? g_count g) eqn:E1.
    + assert (ALL : keep (loc d g) (pairs 0 (g_data g)) = pairs 0 (g_data g)).
      { apply Nat.eqb_eq in E1. unfold keep in *. clear - E1 L. assert (LP : length (pairs 0 (g_data g)) = g_count g) by (rewrite <- (map_length fst), pairs_fst, seq_length; exact L). rewrite <- LP in E1. revert E1. generalize (pairs 0 (g_data g)). intros q.
        assert (FL : forall q, length (filter (fun p : nat * A => negb (loc d g (fst p))) q) <= length q) by (induction q0 as [|x q0 IH]; cbn; [lia|]; destruct (negb _); cbn; lia).
        induction q as [|x q IH]; cbn; [reflexivity|]. destruct (negb (loc d g (fst x))); cbn; intros E; [rewrite IH by lia; reflexivity|]. specialize (FL q). lia. }
      rewrite ALL, pairs_fst, pairs_snd, L, FA. reflexivity.
    + rewrite gather_ok by exact IN. reflexivity.
Qed.

Lemma keep_len (e : nat -> bool) (q : list (nat * A)) : length (keep e q) <= length q.
Proof. unfold keep. induction q as [|x q IH]; cbn; [lia|]. destruct (negb _); cbn; lia. Qed.
Section Scan.
Variables (c : coll) (rows : list A) (d : nat -> bool) (w : N).
Hypothesis (HI : Inv c rows d w) (HC : gsize c <= CAP) (HW : (w < NOT_DELETED_ID)%N).
Definition rest_of (k : nat) : list A := concat (map (glive d) (skipn k (groups c))).
Lemma g_facts k g : nth_error (groups c) k = Some g -> GI (g_del g) (loc d g) /\ (ver (g_del g) < NOT_DELETED_ID)%N /\ length (g_data g) = g_count g /\ g_count g <= CAP /\
  row_start c <= g_start g /\ g_start g + g_count g <= max_row c.
Proof.
  intros E. destruct HI as (Z & L & _ & GV). pose proof (layout_sum _ _ L) as SM. destruct L as (L1 & L2 & L3 & L4).
  destruct (proj1 (Forall_nth _ _) GV k g E) as [X1 X2]. destruct (proj1 (Forall_nth _ _) L2 k g E) as [Y1 Y2]. pose proof (contiguous_bound _ _ _ _ L1 E). unfold max_row. csplit; auto; lia.
Qed.
Lemma group_max_eq k g : nth_error (groups c) k = Some g -> group_max (max_row c) g = g_count g.
Proof. intros E. apply g_facts in E. unfold group_max. replace (max_row c <? g_start g) with false by lia. lia. Qed.
Lemma glive_zero g : length (g_data g) = g_count g -> g_count g = 0 -> glive d g = [].
Proof. intros L E. unfold glive. destruct (g_data g); [reflexivity|cbn in L; lia]. Qed.
Lemma skip_cons k g : nth_error (groups c) k = Some g -> skipn k (groups c) = g :: skipn (S k) (groups c).
Proof. generalize (groups c). intros l. revert k. induction l as [|x l IH]; intros [|k] E; cbn in *; try discriminate; [inversion E; reflexivity|]. apply IH, E. Qed.
Lemma rest_cons k g : nth_error (groups c) k = Some g -> rest_of k = glive d g ++ rest_of (S k).
Proof. intros E. unfold rest_of. rewrite (skip_cons k g E). reflexivity. Qed.
Lemma rest_none k : length (groups c) <= k -> rest_of k = [].
Proof. intros H. unfold rest_of. rewrite skipn_all2 by exact H. reflexivity. Qed.
Lemma rest_end k : (forall j g, nth_error (groups c) j = Some g -> k <= j -> max_row c <= g_start g) -> rest_of k = [].
Proof.
  intros H. remember (length (groups c) - k) as n eqn:E. revert k H E. induction n as [|n IH]; intros k H E; [apply rest_none; lia|].
  destruct (nth_error (groups c) k) as [g|] eqn:Eg; [|apply nth_error_None in Eg; lia]. rewrite (rest_cons k g Eg). rewrite IH; [|intros; eapply H; [eassumption|lia]|lia].
  pose proof (g_facts k g Eg). specialize (H k g Eg ltac:(lia)). rewrite glive_zero by lia. reflexivity.
Qed.
Lemma after_last k g : nth_error (groups c) k = Some g -> max_row c <= g_start g + g_count g -> rest_of (S k) = [].
Proof.
  intros E H. apply rest_end. intros j h Eh Hj. destruct HI as (_ & (L1 & _) & _). pose proof (contiguous_nth _ _ k j _ _ L1 E Eh ltac:(lia)). lia.
Qed.
Lemma next_ok : forall gs k, skipn k (groups c) = gs -> (next_group c k gs = no_group /\ rest_of k = []) \/
  (exists j g, next_group c k gs = at_group j (g_count g) /\ nth_error (groups c) j = Some g /\ k <= j /\ rest_of k = rest_of j).
Proof.
  induction gs as [|g gs IH]; intros k E; cbn [next_group].
  - left. split; [reflexivity|]. unfold rest_of. rewrite E. reflexivity.
  - assert (Eg : nth_error (groups c) k = Some g). { rewrite <- (firstn_skipn k (groups c)), E. assert (length (firstn k (groups c)) = k). { rewrite firstn_length. assert (length (skipn k (groups c)) = S (length gs)) by (rewrite E; reflexivity). rewrite skipn_length in H. lia. } rewrite <- H at 2. apply nth_mid. }
    assert (Es : skipn (S k) (groups c) = gs) by (rewrite (skip_cons k g Eg) in E; inversion E; reflexivity).
    destruct (max_row c <=? g_start g) eqn:Q.
    + left. split; [reflexivity|]. apply rest_end. intros j h Eh Hj. destruct HI as (_ & (L1 & _) & _). destruct (Nat.eq_dec j k) as [->|N]; [rewrite Eg in Eh; inversion Eh; subst; lia|]. pose proof (contiguous_nth _ _ k j _ _ L1 Eg Eh ltac:(lia)). lia.
    + rewrite (group_max_eq k g Eg). destruct (g_count g =? 0) eqn:Z.
      * assert (RR : rest_of k = rest_of (S k)). { pose proof (g_facts k g Eg). rewrite (rest_cons k g Eg), glive_zero by lia. reflexivity. }
        destruct (IH (S k) Es) as [[H1 H2]|(j & h & H1 & H2 & H3 & H4)]; [left; split; [exact H1|congruence]|]. right. exists j, h. csplit; auto; [lia|congruence].
      * right. exists k, g. auto.
Qed.
Lemma first_ok : forall gs k, skipn k (groups c) = gs -> (first_group c k gs = no_group /\ rest_of k = []) \/
  (exists j g, first_group c k gs = at_group j (g_count g) /\ nth_error (groups c) j = Some g /\ rest_of k = rest_of j).
Proof.
  induction gs as [|g gs IH]; intros k E; cbn [first_group].
  - left. split; [reflexivity|]. unfold rest_of. rewrite E. reflexivity.
  - assert (Eg : nth_error (groups c) k = Some g). { rewrite <- (firstn_skipn k (groups c)), E. assert (length (firstn k (groups c)) = k). { rewrite firstn_length. assert (length (skipn k (groups c)) = S (length gs)) by (rewrite E; reflexivity). rewrite skipn_length in H. lia. } rewrite <- H at 2. apply nth_mid. }
    assert (Es : skipn (S k) (groups c) = gs) by (rewrite (skip_cons k g Eg) in E; inversion E; reflexivity).
    rewrite (group_max_eq k g Eg). destruct (g_count g =? 0) eqn:Z.
    + assert (RR : rest_of k = rest_of (S k)). { pose proof (g_facts k g Eg). rewrite (rest_cons k g Eg), glive_zero by lia. reflexivity. }
      destruct gs as [|g2 gs].
      * right. exists k, g. replace (g_count g) with 0 by lia. auto.
      * destruct (IH (S k) Es) as [[H1 H2]|(j & h & H1 & H2 & H3)]; [left; split; [exact H1|congruence]|]. right. exists j, h. csplit; auto. congruence.
    + right. exists k, g. auto.
Qed.

(** where the scan is: the rows still to come are those of the groups from the second argument *)
Inductive at_pos : sstate -> nat -> Prop :=
| pos_fresh k g : nth_error (groups c) k = Some g -> at_pos (at_group k (g_count g)) k
| pos_past k g cp : nth_error (groups c) k = Some g -> at_pos {| s_group := Some k; s_vec := 1; s_max := g_count g; s_cpos := cp |} (S k)
| pos_none k : length (groups c) <= k -> at_pos no_group k.
Definition step_ok (k : nat) (r : res (option (@chunk A) * sstate)) : Prop :=
  (rest_of k = [] /\ exists st', r = Ok (None, st')) \/
  (exists ch st' k', r = Ok (Some ch, st') /\ at_pos st' k' /\ out ch <> [] /\ rest_of k = out ch ++ rest_of k').
Lemma step_none n k : rest_of k = [] -> step_ok k (scan_next (S n) c None no_group).
Proof. intros H. left. split; [exact H|]. exists no_group. reflexivity. Qed.
Lemma step_fresh : forall n k g, nth_error (groups c) k = Some g -> length (groups c) - k < n -> step_ok k (scan_next n c None (at_group k (g_count g))).
Proof.
  induction n as [|n IH]; intros k g E F; [lia|]. cbn [scan_next at_group s_group s_vec s_max s_cpos]. rewrite E. destruct (g_facts k g E) as (G1 & G2 & G3 & G4 & G5 & G6).
  assert (K : k < length (groups c)) by (apply nth_error_Some; congruence).
  assert (W : wanted None (keep (loc d g) (pairs 0 (g_data g))) = keep (loc d g) (pairs 0 (g_data g))) by (unfold wanted; apply filter_all; reflexivity).
  destruct (scan_group_ok d g None (g_count g) G1 G2 G3 G4 ltac:(congruence)) as [S1 S2]. rewrite W in *. destruct (keep (loc d g) (pairs 0 (g_data g))) as [|x q] eqn:EQ.
  - destruct (S1 eq_refl) as (vec & ->). cbn [rbind]. assert (RR : rest_of k = rest_of (S k)) by (rewrite (rest_cons k g E); unfold glive; rewrite EQ; reflexivity).
    destruct (max_row c <=? g_start g + g_count g) eqn:Q.
    + left. split; [rewrite RR; eapply after_last; [exact E|lia]|]. eexists; reflexivity.
    + assert (SK : step_ok (S k) (scan_next n c None (next_group c (S k) (skipn (S k) (groups c))))).
      { destruct (next_ok _ (S k) eq_refl) as [[-> H2]|(j & h & -> & H2 & H3 & H4)]; [destruct n; [lia|]; apply step_none; exact H2|].
        specialize (IH j h H2 ltac:(lia)). unfold step_ok in *. rewrite H4. exact IH. }
      unfold step_ok in *. rewrite RR. exact SK.
  - rewrite <- EQ in *. rewrite (S2 ltac:(congruence)). cbn [rbind]. right. do 2 eexists. exists (S k). split; [reflexivity|]. split; [constructor; exact E|]. cbn [out]. split; [rewrite EQ; discriminate|]. rewrite (rest_cons k g E). reflexivity.
Qed.
Lemma step_any st k : at_pos st k -> step_ok k (scan_chunk c None st).
Proof.
  intros H. unfold scan_chunk. destruct H as [k g E|k g cp E|k L].
  - apply step_fresh; [exact E|lia].
  - cbn [scan_next s_group s_vec s_max s_cpos]. rewrite E. destruct (g_facts k g E) as (G1 & G2 & G3 & G4 & G5 & G6). rewrite past by exact G4. cbn [rbind].
    assert (K : k < length (groups c)) by (apply nth_error_Some; congruence).
    destruct (max_row c <=? g_start g + g_count g) eqn:Q.
    + left. split; [eapply after_last; [exact E|lia]|]. eexists; reflexivity.
    + destruct (next_ok _ (S k) eq_refl) as [[-> H2]|(j & h & -> & H2 & H3 & H4)]; [destruct (length (groups c)); [lia|]; apply step_none; exact H2|].
      pose proof (step_fresh (length (groups c)) j h H2 ltac:(lia)) as S. unfold step_ok in *. rewrite H4. exact S.
  - apply step_none. apply rest_none, L.
Qed.
Lemma scan_loop_ok : forall n st k, at_pos st k -> length (rest_of k) < n -> scan_loop n c None st = Ok (rest_of k).
Proof.
  induction n as [|n IH]; intros st k P F; [lia|]. cbn [scan_loop]. destruct (step_any st k P) as [[H1 (st' & ->)]|(ch & st' & k' & -> & P' & NE & ER)]; cbn [rbind].
  - rewrite H1. reflexivity.
  - rewrite ER, app_length in F. rewrite (IH st' k' P'); [cbn [rbind]; rewrite ER; reflexivity|]. destruct (out ch); [congruence|]. cbn [length] in F. lia.
Qed.
Lemma rest_all : rest_of 0 = map snd (keep d (pairs (row_start c) rows)).
Proof. destruct HI as (_ & (L1 & L2 & L3 & L4) & _). unfold rest_of. cbn [skipn]. rewrite (live_groups d _ (row_start c) L1); [rewrite L4; reflexivity|]. apply Forall_impl with (2 := L2). tauto. Qed.
Lemma scan_all_ok : scan_all c None = Ok (map snd (keep d (pairs (row_start c) rows))).
Proof.
  unfold scan_all, init_scan. rewrite <- rest_all. pose proof rest_all as RA. assert (T : total c = length rows) by apply HI.
  assert (LR : length (rest_of 0) <= total c). { rewrite RA, map_length, T. etransitivity; [apply keep_len|]. rewrite <- (map_length fst), pairs_fst, seq_length. lia. }
  destruct (first_ok _ 0 eq_refl) as [[H1 H2]|(j & g & H1 & H2 & H3)]; cbn [skipn] in H1; rewrite H1.
  - rewrite H2. cbn. reflexivity.
  - rewrite H3. apply scan_loop_ok; [constructor; exact H2|]. rewrite <- H3. lia.
Qed.
End Scan.

Lemma live_eq (rows : list A) d : live rows d = map snd (keep d (pairs 0 rows)).
Proof. reflexivity. Qed.
Lemma after_acts l c os : bound [] 0 l -> acts (@new_table A) l = Ok (c, os) -> exists rows d w, history [] none_deleted l os rows d /\ Inv c rows d w /\ gsize c = CAP /\ row_start c = 0 /\ shape c /\
  (w + 1 < NOT_DELETED_ID)%N /\ (N.of_nat (length rows) + 1 < 2 ^ 63)%N.
Proof.
  intros B E. destruct (acts_sound l new_table [] none_deleted 0 c os Inv_new eq_refl (or_introl eq_refl) B E) as (rows & d & w & H & I & S & R & SH & W & X). exists rows, d, w.
  destruct B as [_ B]. split; [exact H|]. split; [exact I|]. split; [exact S|]. split; [exact R|]. split; [exact SH|]. split; [lia|exact X].
Qed.
Lemma acts_sound_w l c os : bound [] 0 l -> (N.of_nat (del_ids l) + 2000 < NOT_DELETED_ID)%N -> acts (@new_table A) l = Ok (c, os) -> exists rows d w, history [] none_deleted l os rows d /\ Inv c rows d w /\ gsize c = CAP /\ row_start c = 0 /\ shape c /\
  (w + 2000 < NOT_DELETED_ID)%N.
Proof.
  intros B B2 E. destruct (acts_sound l new_table [] none_deleted 0 c os Inv_new eq_refl (or_introl eq_refl) B E) as (rows & d & w & H & I & S & R & SH & W & X). exists rows, d, w.
  split; [exact H|]. split; [exact I|]. split; [exact S|]. split; [exact R|]. split; [exact SH|]. lia.
Qed.
Lemma acts_scan l c os : bound [] 0 l -> acts (@new_table A) l = Ok (c, os) -> exists rows d, history [] none_deleted l os rows d /\ scan_all c None = Ok (live rows d).
Proof.
  intros B E. destruct (after_acts l c os B E) as (rows & d & w & H & I & S & R & SH & W & _). exists rows, d. split; [exact H|].
  rewrite (scan_all_ok c rows d w I) by lia. rewrite R. reflexivity.
Qed.

(** *** one chunk of a table of at most 1024 rows *)
Lemma small_shape c rows d w : Inv c rows d w -> gsize c = CAP -> shape c -> length rows <= CAP ->
  groups c = [] \/ exists g r, groups c = g :: r /\ g_data g = rows /\ (g_count g = 0 -> r = []).
Proof.
  intros (Z & (L1 & L2 & L3 & L4) & _) S [E|F] B; [auto|]. destruct (groups c) as [|g r] eqn:E; [auto|]. right. exists g, r. split; [reflexivity|]. cbn [fbl] in F. cbn [map concat] in L4. inversion L2 as [|? ? [K1 K2] _]; subst.
  destruct r as [|g2 r]; [cbn; rewrite app_nil_r; auto|]. destruct F as [F1 F2]. rewrite app_length in B. destruct (concat (map g_data (g2 :: r))); [|cbn in B; lia]. rewrite app_nil_r. split; [reflexivity|]. lia.
Qed.
Lemma wanted_sub f (q : list (nat * A)) x : In x (wanted f q) -> In x q. Proof. intros H. apply filter_In in H. apply H. Qed.
Definition chunk_of (f : option (A -> bool)) (rows : list A) (d : nat -> bool) (limit : option nat) : @chunk A :=
  let q := wanted f (keep d (pairs 0 rows)) in
  match limit, q with
  | Some O, _ | _, [] => {| flat := true; sel := []; out := [] |}
  | _, _ => {| flat := match f with None => length q =? length rows | Some _ => false end; sel := cut limit (map fst q); out := cut limit (map snd q) |}
  end.
Lemma scan_small c rows d w f : Inv c rows d w -> gsize c = CAP -> row_start c = 0 -> shape c -> (w < NOT_DELETED_ID)%N -> length rows <= CAP ->
  scan_chunk c f (init_scan c) = Ok (None, no_group) /\ wanted f (keep d (pairs 0 rows)) = [] \/ scan_chunk c f (init_scan c) =
    Ok (Some {| flat := match f with None => length (wanted f (keep d (pairs 0 rows))) =? length rows | Some _ => false end; sel := map fst (wanted f (keep d (pairs 0 rows))); out := map snd (wanted f (keep d (pairs 0 rows))) |},
        {| s_group := Some 0; s_vec := 1; s_max := length rows; s_cpos := length rows |}) /\
     wanted f (keep d (pairs 0 rows)) <> [].
Proof.
  intros I S R SH W B. pose proof (small_shape c rows d w I S SH B) as SS.
  destruct SS as [E|(g & r & E & D & Z)].
    - left. unfold init_scan, scan_chunk. rewrite E. cbn. split; [reflexivity|]. destruct I as (_ & (_ & _ & _ & L4) & _). rewrite E in L4. cbn in L4. subst rows. destruct f; reflexivity.
    - assert (E0 : nth_error (groups c) 0 = Some g) by (rewrite E; reflexivity).
      destruct (g_facts c rows d w I ltac:(lia) W 0 g E0) as (G1 & G2 & G3 & G4 & G5 & G6).
      assert (GS : g_start g = 0). { destruct I as (_ & (L1 & _) & _). rewrite E in L1. destruct L1 as [L1 _]. congruence. }
      assert (MR : max_row c = g_count g). { unfold max_row. assert (T : total c = length rows) by apply I. rewrite T, R, <- D. cbn. congruence. }
      assert (IS : init_scan c = at_group 0 (g_count g)).
      { unfold init_scan. rewrite E. cbn [first_group]. rewrite (group_max_eq c rows d w I ltac:(lia) W 0 g E0). destruct (g_count g =? 0) eqn:Q; [|reflexivity]. rewrite Z by lia. replace (g_count g) with 0 by lia. reflexivity. }
      assert (KE : keep (loc d g) (pairs 0 (g_data g)) = keep d (pairs 0 rows)).
      { rewrite D. unfold keep. apply filter_eq. intros [p a] H. cbn. apply pairs_nth in H. destruct H as [H _]. unfold loc. rewrite <- D in H. replace (p <? g_count g) with true by lia. rewrite GS. reflexivity. }
      rewrite IS. unfold scan_chunk. cbn [scan_next at_group s_group s_vec s_max s_cpos]. rewrite E0.
      destruct (scan_group_ok d g f (g_count g) G1 G2 G3 G4 ltac:(auto)) as [S1 S2]. rewrite KE in *. destruct (wanted f (keep d (pairs 0 rows))) as [|x q] eqn:EQ.
      + left. split; [|reflexivity]. destruct (S1 eq_refl) as (v & ->). cbn [rbind]. rewrite MR, GS. replace (g_count g <=? 0 + g_count g) with true by lia. reflexivity.
      + right. rewrite (S2 ltac:(discriminate)). cbn [rbind]. rewrite <- D, G3 in *. split; [reflexivity|discriminate].
Qed.
Lemma select_small c rows d w f limit : Inv c rows d w -> gsize c = CAP -> row_start c = 0 -> shape c -> (w < NOT_DELETED_ID)%N -> length rows <= CAP ->
  select_chunk c f limit = Ok (chunk_of f rows d limit).
Proof.
  intros I S R SH W B. pose proof (scan_small c rows d w f I S R SH W B) as SC.
  unfold select_chunk, chunk_of. cbv zeta. destruct SC as [[-> SC]|[-> SC]]; cbn [rbind].
  - rewrite SC. destruct limit as [[|n]|]; reflexivity.
  - destruct limit as [[|n]|]; [reflexivity| |]; (destruct (wanted f (keep d (pairs 0 rows))) eqn:EQ; [congruence|]); reflexivity.
Qed.
Lemma cut_nil {B} limit : cut limit (@nil B) = []. Proof. destruct limit as [[|n]|]; reflexivity. Qed.
Lemma cut_map {B C} (g : B -> C) limit l : cut limit (map g l) = map g (cut limit l). Proof. destruct limit; cbn; [apply firstn_map|reflexivity]. Qed.
Lemma wanted_snd f (q : list (nat * A)) : map snd (wanted f q) = filter (satisfies f) (map snd q).
Proof. unfold wanted. induction q as [|[p a] q IH]; cbn; [reflexivity|]. destruct (satisfies f a); cbn; rewrite IH; reflexivity. Qed.
Lemma select_rows_small c rows d w f limit : Inv c rows d w -> gsize c = CAP -> row_start c = 0 -> shape c -> (w < NOT_DELETED_ID)%N -> length rows <= CAP ->
  select_rows c f limit = Ok (cut limit (filter (satisfies f) (live rows d))).
Proof.
  intros. unfold select_rows. rewrite (select_small c rows d w) by assumption. cbn [rbind]. unfold chunk_of. cbv zeta. rewrite live_eq, <- wanted_snd. f_equal.
  destruct limit as [[|n]|]; [reflexivity| |]; destruct (wanted f (keep d (pairs 0 rows))) as [|x q]; reflexivity.
Qed.

(** *** the DELETE statement *)
Lemma NoDup_cut {B} limit (l : list B) : NoDup l -> NoDup (cut limit l).
Proof. destruct limit as [n|]; cbn; [|auto]. intros H. rewrite <- (firstn_skipn n l) in H. apply NoDup_app_parts in H. apply H. Qed.
Lemma cut_in {B} limit (l : list B) x : In x (cut limit l) -> In x l.
Proof. destruct limit as [n|]; cbn; [|auto]. intros H. rewrite <- (firstn_skipn n l). apply in_app_iff. auto. Qed.
Lemma up_to_cut {B} limit (l : list B) : up_to limit l = cut limit l.
Proof. destruct limit as [n|]; [|reflexivity]. cbn [up_to cut]. revert l. induction n as [|n IH]; intros [|x l]; cbn [first_of firstn]; [reflexivity..|]. f_equal. apply IH. Qed.
Lemma victims_ok f (rows : list A) d limit : NoDup (victims f rows d limit) /\ forall r, In r (victims f rows d limit) -> r < length rows /\ d r = false.
Proof.
  unfold victims. rewrite up_to_cut, <- cut_map. split.
  - apply NoDup_cut. assert (ND : NoDup (map fst (pairs 0 rows))) by (rewrite pairs_fst; apply seq_NoDup). unfold live_ids. fold (pairs 0 rows). revert ND. generalize (pairs 0 rows). intros q.
    assert (FF : forall (P : nat * A -> bool) q, NoDup (map fst q) -> NoDup (map fst (filter P q))).
    { clear. intros P. induction q as [|x q IH]; cbn; [auto|]. intros H. inversion H as [|? ? H1 H2]; subst. destruct (P x); [|auto]. cbn. constructor; [|auto]. intros K. apply H1. apply in_map_iff in K. destruct K as (y & <- & K). apply in_map. apply filter_In in K. apply K. }
    intros ND. apply FF, FF, ND.
  - intros r H. apply cut_in in H. apply in_map_iff in H. destruct H as ([p a] & <- & H). apply filter_In in H. destruct H as [H _]. apply filter_In in H. destruct H as [H1 H2]. cbn in *. fold (pairs 0 rows) in H1. apply pairs_nth in H1. split; [lia|]. destruct (d p); [discriminate|reflexivity].
Qed.
Lemma keep_all_len (d : nat -> bool) (q : list (nat * A)) p a : In (p, a) q -> d p = true -> length (keep d q) <> length q.
Proof.
  induction q as [|x q IH]; intros H D; [destruct H|]. pose proof (keep_len d q) as K. unfold keep in *. cbn. destruct H as [->|H].
  - cbn [fst]. rewrite D. cbn. lia.
  - specialize (IH H D). destruct (negb (d (fst x))); cbn; lia.
Qed.
Lemma delete_small c rows d w f limit : Inv c rows d w -> gsize c = CAP -> row_start c = 0 -> shape c -> (w + 1 + N.of_nat (length rows) < NOT_DELETED_ID)%N -> length rows <= CAP ->
  (f <> None \/ exists r, r < length rows /\ d r = true) ->
  exists c' d' w', delete_stmt c f limit = Ok (c', Some (length (victims f rows d limit))) /\ Inv c' rows d' w' /\ (w' < NOT_DELETED_ID)%N /\ gsize c' = CAP /\ row_start c' = 0 /\ forall r, d' r = d r || mem r (victims f rows d limit).
Proof.
  intros I S R SH W B C. assert (NB : (N.of_nat (length rows) + 1 < 2 ^ 63)%N) by (assert (N.of_nat CAP = 1024%N) by reflexivity; lia).
  unfold delete_stmt. rewrite (select_small c rows d w) by (auto; try apply I; lia). cbn [rbind].
  assert (SEL : flat (chunk_of f rows d limit) = false /\ sel (chunk_of f rows d limit) = victims f rows d limit \/ victims f rows d limit = [] /\ out (chunk_of f rows d limit) = [] /\ flat (chunk_of f rows d limit) = true).
  { unfold chunk_of, victims, live_ids. rewrite up_to_cut. fold (pairs 0 rows). fold (keep d (pairs 0 rows)). fold (wanted f (keep d (pairs 0 rows))). cbv zeta.
    assert (FL : match f with None => length (wanted f (keep d (pairs 0 rows))) =? length rows | Some _ => false end = false).
    { destruct f as [f|]; [reflexivity|]. destruct C as [C|(r & C1 & C2)]; [congruence|]. unfold wanted. rewrite filter_all by reflexivity. destruct (nth_error rows r) as [a|] eqn:E; [|apply nth_error_None in E; lia].
      assert (In (r, a) (pairs 0 rows)). { clear - E. assert (G : forall (l : list A) s p x, nth_error l p = Some x -> In (s + p, x) (pairs s l)). { induction l as [|y l IH]; intros s [|p] x E'; cbn in E'; try discriminate; change (pairs s (y :: l)) with ((s, y) :: pairs (Datatypes.S s) l). - inversion E'; subst. left. f_equal. lia. - right. replace (s + Datatypes.S p) with (Datatypes.S s + p) by lia. apply IH, E'. } apply (G rows 0 r a E). }
      pose proof (keep_all_len d _ r a H C2) as K. replace (length (pairs 0 rows)) with (length rows) in K by (rewrite <- (map_length fst (pairs 0 rows)), pairs_fst, seq_length; reflexivity). lia. }
    destruct limit as [[|n]|]; [right; auto| |]; (destruct (wanted f (keep d (pairs 0 rows))) as [|x q] eqn:EQ; [right; rewrite ?cut_nil; auto|]); left; rewrite <- EQ in *; cbn [flat sel]; (split; [exact FL|]); [rewrite cut_map|]; reflexivity. }
  destruct (victims_ok f rows d limit) as [ND LV]. assert (W0 : (w < NOT_DELETED_ID)%N) by lia.
  destruct SEL as [[-> ->]|(V & O & ->)].
  2:{ rewrite V, O. cbn. exists c, d, w. split; [reflexivity|]. split; [exact I|]. split; [exact W0|]. split; [exact S|]. split; [exact R|]. intros r. rewrite orb_false_r. reflexivity. }
  destruct (victims f rows d limit) as [|v vs] eqn:EV.
  { cbn. exists c, d, w. split; [reflexivity|]. split; [exact I|]. split; [exact W0|]. split; [exact S|]. split; [exact R|]. intros r. rewrite orb_false_r. reflexivity. }
  rewrite <- EV in *. assert (LL : length (victims f rows d limit) <= length rows).
  { assert (INC : incl (victims f rows d limit) (seq 0 (length rows))) by (intros x Hx; apply in_seq; specialize (LV x Hx); lia). apply NoDup_incl_length in INC; [|exact ND]. rewrite seq_length in INC. exact INC. }
  assert (GB := shape_groups c rows d w I SH NB).
  assert (W1 : (w + 1 + N.of_nat (length (victims f rows d limit)) < NOT_DELETED_ID)%N).
  { clear - W LL. lia. }
  destruct (del_total (length (victims f rows d limit)) (victims f rows d limit) c 0 rows d w I R GB W1 (le_n _) ND LV) as (c' & E).
  unfold delete_ids. rewrite E. cbn [rbind]. destruct (del_sound _ _ c 0 rows d w c' _ I R GB W1 E) as (d' & o' & I' & EF & EO & S' & R' & _).
  destruct o' as [m|]; [|discriminate]. destruct EF as (EF & _). exists c', d', (w + N.of_nat (length (victims f rows d limit)))%N. split; [reflexivity|]. split; [exact I'|]. split; [lia|]. split; [congruence|]. split; [exact R'|]. exact EF.
Qed.

(** *** where the statements go wrong *)
Lemma loaded (rows : list A) : (N.of_nat (length rows) + 1 < 2 ^ 63)%N -> exists c rest, insert (@new_table A) [rows] = Ok (c, rest) /\ Inv c rows none_deleted 0 /\ gsize c = CAP /\ row_start c = 0 /\ shape c.
Proof.
  intros B. destruct (insert_inv new_table [rows] [] none_deleted 0 Inv_new) as (c & rest & E & I & S & R). exists c, rest. split; [exact E|]. cbn [app concat] in I. rewrite app_nil_r in I. split; [exact I|]. split; [exact S|]. split; [exact R|].
  apply (insert_keeps new_table [rows] c rest); [apply Inv_new|constructor|left; reflexivity|exact E].
Qed.
Lemma big_shape c rows d w : Inv c rows d w -> gsize c = CAP -> shape c -> CAP < length rows -> exists g h r, groups c = g :: h :: r /\ g_data g = firstn CAP rows /\ g_count g = CAP /\ 0 < g_count h.
Proof.
  intros (Z & (L1 & L2 & L3 & L4) & _) S [E|F] B; [rewrite E in L4; cbn in L4; subst; cbn in B; lia|].
  destruct (groups c) as [|g [|h r]]; [destruct F| |].
  - cbn in F. cbn in L4. rewrite app_nil_r in L4. subst. lia.
  - exists g, h, r. change (length (g_data g) = gsize c /\ fbl (gsize c) (h :: r)) in F. destruct F as [F1 F2]. inversion L2 as [|? ? [K1 K2] L2']; subst. inversion L2' as [|? ? [K3 K4] _]; subst. cbn [map concat] in *.
    split; [reflexivity|]. split; [rewrite <- S, <- F1, firstn_app, firstn_all, Nat.sub_diag; cbn; rewrite app_nil_r; reflexivity|]. split; [lia|].
    destruct r; cbn [fbl] in F2; [|lia]. cbn in B. rewrite app_nil_r, app_length in B. lia.
Qed.
Lemma keep_none (g : group) q : keep (loc none_deleted g) q = q.
Proof. unfold keep. apply filter_all. intros x _. unfold loc, none_deleted. rewrite andb_false_r. reflexivity. Qed.
Lemma no_del_wanted (g : group) : wanted None (keep (loc none_deleted g) (pairs 0 (g_data g))) = pairs 0 (g_data g).
Proof. unfold wanted, keep. rewrite !filter_all; [reflexivity| |reflexivity]. intros x _. unfold loc, none_deleted. rewrite andb_false_r. reflexivity. Qed.
Lemma first_vector (rows : list A) : (N.of_nat (length rows) + 1 < 2 ^ 63)%N -> CAP < length rows ->
  exists c rest, insert (@new_table A) [rows] = Ok (c, rest) /\ select_rows c None None = Ok (firstn CAP rows) /\ scan_all c None = Ok rows.
Proof.
  intros NB B. destruct (loaded rows NB) as (c & rest & E & I & S & R & SH). exists c, rest. split; [exact E|]. split.
  - destruct (big_shape c rows _ _ I S SH B) as (g & h & r & G & GD & GC & HC). assert (E0 : nth_error (groups c) 0 = Some g) by (rewrite G; reflexivity).
    assert (W0 : (0 < NOT_DELETED_ID)%N) by reflexivity.
    destruct (g_facts c rows _ _ I ltac:(lia) W0 0 g E0) as (G1 & G2 & G3 & G4 & G5 & G6). assert (CB := CAP_big).
    unfold select_rows, select_chunk, init_scan. rewrite G. cbn [first_group]. rewrite (group_max_eq c rows _ _ I ltac:(lia) W0 0 g E0). replace (g_count g =? 0) with false by lia.
    unfold scan_chunk. cbn [scan_next at_group s_group s_vec s_max s_cpos]. rewrite E0.
    destruct (scan_group_ok none_deleted g None (g_count g) G1 G2 G3 G4 ltac:(congruence)) as [_ S2]. rewrite no_del_wanted in S2. rewrite S2; [|intros K; apply (f_equal (@length _)) in K; rewrite <- (map_length fst), pairs_fst, seq_length in K; cbn in K; lia].
    cbn [rbind out cut]. rewrite pairs_snd, GD. reflexivity.
  - rewrite (scan_all_ok c rows _ _ I) by (reflexivity || lia). rewrite R. unfold keep. rewrite filter_all by reflexivity. rewrite pairs_snd. reflexivity.
Qed.
(** a vector of which all rows are deleted, in a group of two vectors *)
Lemma first_shape c rows d w : Inv c rows d w -> shape c -> 0 < length rows <= gsize c -> exists g r, groups c = g :: r /\ g_data g = rows /\ g_count g = length rows.
Proof.
  intros (Z & (L1 & L2 & L3 & L4) & _) [E|F] B; [rewrite E in L4; cbn in L4; subst; cbn in B; lia|]. destruct (groups c) as [|g r] eqn:E; [destruct F|]. exists g, r. split; [reflexivity|]. cbn [map concat] in L4. inversion L2 as [|? ? [K1 K2] _]; subst.
  assert (X : concat (map g_data r) = []); [|rewrite X, app_nil_r; auto]. destruct r as [|g2 r]; [reflexivity|]. destruct F as [F1 F2]. rewrite app_length in B. destruct (concat (map g_data (g2 :: r))); [reflexivity|]. cbn in B. lia.
Qed.
Lemma skipped_vector (a b : list A) : length a = CAP -> 0 < length b <= CAP ->
  exists c rest c', insert {| gsize := 2 * CAP; row_start := 0; total := 0; groups := [] |} [a ++ b] = Ok (c, rest) /\ delete_ids c (seq 0 CAP) = Ok (c', Some CAP) /\ scan_all c' None = Ok (firstn (length b) a).
Proof.
  intros LA LB. assert (CB := CAP_big). assert (CE : N.of_nat CAP = 1024%N) by reflexivity. assert (NE : NOT_DELETED_ID = (2 ^ 64 - 2)%N) by reflexivity. set (c0 := {| gsize := 2 * CAP; row_start := 0; total := 0; groups := [] |} : coll).
  assert (I0 : Inv c0 [] none_deleted 0). { unfold Inv, layout, c0. cbn [gsize row_start total groups]. csplit; cbn [map concat contiguous length]; auto; lia. }
  destruct (insert_inv c0 [a ++ b] [] none_deleted 0 I0) as (c & rest & E & I & S & R). cbn [app concat] in I. rewrite app_nil_r in I. change (gsize c0) with (2 * CAP) in S. change (row_start c0) with 0 in R.
  assert (SH : shape c) by (apply (insert_keeps c0 [a ++ b] c rest); [apply I0|constructor|left; reflexivity|exact E]). exists c, rest.
  assert (LR : length (a ++ b) = CAP + length b) by (rewrite app_length; lia).
  assert (GB : (N.of_nat (length (groups c)) < 2 ^ 63)%N) by (apply (shape_groups c _ _ _ I SH); lia).
  assert (SL : length (seq 0 CAP) = CAP) by apply seq_length.
  destruct (del_total CAP (seq 0 CAP) c 0 (a ++ b) none_deleted 0 I R GB) as (c' & ED); [rewrite SL; lia|lia|apply seq_NoDup|intros r Hr; apply in_seq in Hr; split; [lia|reflexivity]|].
  exists c'. split; [exact E|]. split; [unfold delete_ids; rewrite SL; rewrite ED, SL; reflexivity|].
  destruct (del_sound CAP (seq 0 CAP) c 0 (a ++ b) none_deleted 0 c' _ I R GB ltac:(rewrite SL; lia) ED) as (d' & o & I' & EF & EO & S' & R' & DT). destruct o as [n|]; [|discriminate EO]. destruct EF as (EF & _). rewrite SL in I'.
  assert (SH' : shape c'). { destruct SH as [SH|SH]; [left|right]. - rewrite SH in DT. cbn [map] in DT. destruct (groups c'); [reflexivity|discriminate DT]. - rewrite S'. eapply fbl_data; [|exact SH]. congruence. }
  destruct (first_shape c' (a ++ b) d' _ I' SH') as (g & r & G & GD & GC); [rewrite S', S; lia|]. pose proof I' as (_ & (L1 & _ & L3 & _) & _ & GV). rewrite G in L1, GV. destruct L1 as [L1 _]. rewrite R' in L1. pose proof (Forall_inv GV) as [GI1 GV1].
  assert (V : (ver (g_del g) < NOT_DELETED_ID)%N) by lia.
  assert (MR : max_row c' = g_count g) by (unfold max_row; rewrite R', L3, GC; reflexivity).
  assert (GM : group_max (max_row c') g = g_count g) by (unfold group_max; rewrite MR, L1; replace (g_count g <? 0) with false by lia; lia).
  unfold scan_all, init_scan. rewrite G, L3, LR. cbn [first_group]. rewrite GM. replace (g_count g =? 0) with false by lia.
  assert (E0 : nth_error (groups c') 0 = Some g) by (rewrite G; reflexivity).
  assert (X0 : rg_select (g_del g) 0 CAP = []).
  { rewrite (select_sound _ _ 0 CAP GI1 V (le_n _)). assert (Y : forall l, (forall x, In x l -> x < CAP) -> filter (fun p => negb (loc d' g (0 * CAP + p))) l = []); [|apply Y; intros x Hx; apply in_seq in Hx; lia].
    induction l as [|x l IH]; intros H; [reflexivity|]. cbn [filter]. assert (Q : loc d' g (0 * CAP + x) = true). { specialize (H x (or_introl eq_refl)). unfold loc. rewrite EF, L1. replace (0 * CAP + x <? g_count g) with true by lia. cbn [andb]. unfold none_deleted. cbn [orb]. apply mem_in, in_seq. lia. } rewrite Q. apply IH. intros y Hy. apply H. right. exact Hy. }
  assert (X1 : rg_select (g_del g) 1 (length b) = seq 0 (length b)).
  { rewrite (select_sound _ _ 1 (length b) GI1 V) by lia. apply filter_all. intros x Hx. apply in_seq in Hx. unfold loc. rewrite EF, L1. unfold none_deleted. cbn [orb]. replace (mem (0 + (1 * CAP + x)) (seq 0 CAP)) with false; [rewrite andb_false_r; reflexivity|]. symmetry. destruct (mem _ _) eqn:Q; [|reflexivity]. apply mem_in, in_seq in Q. lia. }
  assert (SG : scan_group (Datatypes.S (Datatypes.S (g_count g))) g None 0 (g_count g) 0 = Ok (Some {| flat := true; sel := seq 0 (length b); out := firstn (length b) a |}, 2, length b)).
  { destruct (g_count g) as [|m] eqn:EM; [lia|]. rewrite <- EM in *. assert (SN : forall k, scan_group (Datatypes.S k) g None 1 (g_count g) 0 = Ok (Some {| flat := true; sel := seq 0 (length b); out := firstn (length b) a |}, 2, length b)).
    { intros k. cbn [scan_group]. replace (g_count g <=? 1 * CAP) with false by lia. replace (Nat.min CAP (g_count g - 1 * CAP)) with (length b) by lia. rewrite X1, seq_length. replace (length b =? 0) with false by lia. rewrite Nat.eqb_refl. rewrite GD, LR. replace (Nat.min CAP (CAP + length b - 1 * CAP)) with (length b) by lia. cbn [skipn Nat.add]. rewrite firstn_firstn, Nat.min_id, firstn_app. replace (length b - length a) with 0 by lia. cbn [firstn]. rewrite app_nil_r. reflexivity. }
    set (fu := Datatypes.S (g_count g)). cbn [scan_group]. replace (g_count g <=? 0 * CAP) with false by lia. replace (Nat.min CAP (g_count g - 0 * CAP)) with CAP by lia. rewrite X0. cbn [length Nat.eqb]. unfold fu. apply SN. }
  cbn [scan_loop]. unfold scan_chunk at 1. cbn [scan_next at_group s_group s_vec s_max s_cpos]. rewrite E0, SG. cbn [rbind out].
  destruct (CAP + length b) as [|k] eqn:EK; [lia|]. cbn [scan_loop]. unfold scan_chunk at 1. cbn [scan_next s_group s_vec s_max s_cpos]. rewrite E0.
  assert (SE : forall k, scan_group (Datatypes.S k) g None 2 (g_count g) (length b) = Ok (None, 2, length b)) by (intros k'; cbn [scan_group]; replace (g_count g <=? 2 * CAP) with true by lia; reflexivity).
  rewrite SE. cbn [rbind]. rewrite MR, L1. replace (g_count g <=? 0 + g_count g) with true by lia. cbn [rbind]. rewrite app_nil_r. reflexivity.
Qed.
Lemma filtered_ub (rows : list A) (f : A -> bool) : (N.of_nat (length rows) + 1 < 2 ^ 63)%N -> CAP < length rows -> Forall (fun a => f a = false) (firstn CAP rows) ->
  exists c rest, insert (@new_table A) [rows] = Ok (c, rest) /\ select_rows c (Some f) None = Err UB.
Proof.
  intros NB B FF. destruct (loaded rows NB) as (c & rest & E & I & S & R & SH). exists c, rest. split; [exact E|].
  destruct (big_shape c rows _ _ I S SH B) as (g & h & r & G & GD & GC & HC). assert (E0 : nth_error (groups c) 0 = Some g) by (rewrite G; reflexivity). assert (E1 : nth_error (groups c) 1 = Some h) by (rewrite G; reflexivity).
  assert (W0 : (0 < NOT_DELETED_ID)%N) by reflexivity. assert (CB := CAP_big).
  destruct (g_facts c rows _ _ I ltac:(lia) W0 0 g E0) as (G1 & G2 & G3 & G4 & G5 & G6). destruct (g_facts c rows _ _ I ltac:(lia) W0 1 h E1) as (H1 & H2 & H3 & H4 & H5 & H6).
  assert (GS : g_start g = 0 /\ g_start h = CAP). { destruct I as (_ & (L1 & _) & _). rewrite G in L1. destruct L1 as [L1 [L1' _]]. rewrite R in *. rewrite GC in L1'. split; [exact L1|]. exact L1'. } destruct GS as [GS HS].
  assert (T : total c = length rows) by apply I.
  unfold select_rows, select_chunk, init_scan. rewrite G. cbn [first_group]. rewrite (group_max_eq c rows _ _ I ltac:(lia) W0 0 g E0). replace (g_count g =? 0) with false by lia.
  unfold scan_chunk. cbn [scan_next at_group s_group s_vec s_max s_cpos]. rewrite E0.
  destruct (scan_group_ok none_deleted g (Some f) (g_count g) G1 G2 G3 G4 ltac:(auto)) as [S1 _].
  destruct S1 as (v & ->).
  { assert (N : map snd (wanted (Some f) (keep (loc none_deleted g) (pairs 0 (g_data g)))) = []).
    { rewrite wanted_snd. rewrite keep_none. rewrite pairs_snd, GD. cbn [satisfies]. clear - FF. induction FF as [|a l H F IH]; cbn; [reflexivity|]. rewrite H. exact IH. }
    destruct (wanted _ _); [reflexivity|discriminate N]. }
  cbn [rbind]. unfold max_row at 1. rewrite R, T, GS, GC. replace (0 + length rows <=? 0 + CAP) with false by lia. rewrite G. cbn [skipn next_group length]. unfold max_row at 1. rewrite R, T, HS. replace (0 + length rows <=? CAP) with false by lia.
  rewrite (group_max_eq c rows _ _ I ltac:(lia) W0 1 h E1). replace (g_count h =? 0) with false by lia. cbn [scan_next at_group s_group s_vec s_max s_cpos]. rewrite E1.
  destruct (g_count h) as [|n] eqn:EH; [lia|]. cbn [scan_group]. replace (Datatypes.S n <=? 0 * CAP) with false by lia. replace (Nat.min CAP (Datatypes.S n - 0 * CAP)) with (Datatypes.S n) by lia. rewrite <- EH.
  rewrite (sel_ok none_deleted h H1 H2) by (congruence || lia). rewrite keep_none. rewrite pairs_fst, seq_length. rewrite H3, EH. cbn [seq Nat.eqb filter_positions]. rewrite HS. replace (0 <? CAP) with true by lia. reflexivity.
Qed.
Lemma append_two (rows : list A) f c g : CAP < length rows <= 2 * CAP -> groups c = [g] -> gsize c = CAP ->
  exists c' cur off, append_loop (S (S f)) c 0 0 rows = Ok (c', cur, off, skipn CAP rows).
Proof.
  intros B G Z. assert (CB := CAP_big). remember (S f) as f1 eqn:EF. cbn [append_loop]. rewrite G. cbn [nth_error]. rewrite Z. replace (0 <=? CAP) with true by lia. rewrite Nat.sub_0_r. replace (Nat.min (length rows) CAP) with CAP by lia.
  replace (length rows - CAP =? 0) with false by lia. cbn [upd]. set (c2 := new_group _ _).
  assert (G2 : exists h, groups c2 = [add_data g (firstn CAP rows); h]) by (eexists; reflexivity). destruct G2 as (h & G2). assert (Z2 : gsize c2 = CAP) by exact Z. rewrite G2. cbn [length Nat.sub]. subst f1. cbn [append_loop]. rewrite G2. cbn [nth_error]. rewrite Z2. replace (0 <=? CAP) with true by lia.
  rewrite skipn_length, Nat.sub_0_r. replace (Nat.min (length rows - CAP) CAP) with (length rows - CAP) by lia. rewrite Nat.sub_diag. cbn [Nat.eqb]. eauto.
Qed.
Lemma insert_output (rows : list A) : CAP < length rows <= 2 * CAP -> exists c, insert (@new_table A) [rows] = Ok (c, skipn CAP rows).
Proof.
  intros B. assert (CB := CAP_big). destruct (insert_shape (@new_table A) [rows] ltac:(cbn [gsize new_table]; lia) ltac:(constructor)) as (pre & g0 & news & rest & c & _ & E & _).
  exists c. rewrite E. do 2 f_equal. revert E. unfold insert. set (c1 := new_group (@new_table A) 0).
  assert (IA : init_append (@new_table A) = Ok (c1, {| a_first := 0; a_cur := 0; a_off := 0; a_total := 0 |})) by reflexivity. rewrite IA. cbn [rbind appends]. unfold append. cbn [a_cur a_off].
  destruct (append_two rows (length rows) c1 {| g_start := 0; g_data := []; g_del := fresh 0 |} B eq_refl eq_refl) as (c' & cur & off & EA). rewrite EA. cbn [rbind]. destruct (finalize _ _); cbn [rbind]; congruence.
Qed.

(** deleting row 0 many times in one call *)
Lemma zero_loop g : 0 < r_count g -> forall n buf, length buf + n <= CAP -> del_loop g (Some 0) buf 0 (repeat 0 n) = flush_buf g (Some 0) (buf ++ repeat 0 n) 0.
Proof.
  intros Z. assert (CB := CAP_big). induction n as [|n IH]; intros buf B; [cbn [repeat del_loop]; rewrite app_nil_r; reflexivity|]. cbn [repeat del_loop]. replace (0 <? r_count g) with true by lia. cbn [negb].
  rewrite Nat.div_0_l by lia. cbn [Nat.eqb Nat.mul Nat.sub]. replace (length buf <? CAP) with true by lia. rewrite IH by (rewrite app_length; cbn; lia). rewrite <- app_assoc. reflexivity.
Qed.
Lemma zero_delete g n : GI g none_deleted -> (ver g + 1 < NOT_DELETED_ID)%N -> 0 < r_count g -> 0 < n <= CAP -> exists g' k, rg_delete g (repeat 0 n) = Ok (g', Some k).
Proof.
  intros G V Z B. destruct n as [|n]; [lia|]. assert (CB := CAP_big). unfold rg_delete. cbn [repeat del_loop]. replace (0 <? r_count g) with true by lia. cbn [negb flush_buf rbind]. rewrite Nat.div_0_l by lia. cbn [Nat.mul Nat.sub].
  rewrite zero_loop by (cbn [length]; lia). unfold flush_buf. cbn [app].
  destruct (flush_ok g none_deleted 0 (0 :: repeat 0 n) G V) as (g' & o & -> & _ & _ & O). { intros p [<-|H]; [lia|]. apply repeat_spec in H. lia. }
  cbn [rbind]. destruct o as [k|]; [eauto|]. destruct O as [(p & _ & O) _]. discriminate O.
Qed.
Lemma delete_everything (rows : list A) : 0 < length rows <= CAP -> exists c rest c', insert (@new_table A) [rows] = Ok (c, rest) /\
  delete_stmt c None None = Ok (c', Some (length rows)) /\ scan_all c' None = Ok (tl rows).
Proof.
  intros B. assert (NB : (N.of_nat (length rows) + 1 < 2 ^ 63)%N) by (assert (N.of_nat CAP = 1024%N) by reflexivity; lia). assert (CB := CAP_big).
  destruct (loaded rows NB) as (c & rest & E & I & S & R & SH). assert (W0 : (0 < NOT_DELETED_ID)%N) by reflexivity.
  exists c, rest. unfold delete_stmt. rewrite (select_small c rows _ 0 None None I) by (auto; lia). cbn [rbind].
  assert (CO : chunk_of None rows none_deleted None = {| flat := true; sel := seq 0 (length rows); out := rows |}).
  { unfold chunk_of. cbv zeta. unfold wanted, keep. rewrite !filter_all by reflexivity. destruct (pairs 0 rows) as [|x q] eqn:EQ. { apply (f_equal (map fst)) in EQ. rewrite pairs_fst in EQ. destruct rows; [cbn in B; lia|discriminate]. } rewrite <- EQ. rewrite pairs_fst, pairs_snd. cbn [cut]. f_equal. rewrite <- (map_length fst), pairs_fst, seq_length. apply Nat.eqb_refl. }
  rewrite CO. cbn [flat out]. destruct (small_shape c rows _ _ I S SH ltac:(lia)) as [G|(g & r & G & GD & _)].
  { destruct I as (_ & (_ & _ & _ & L4) & _). rewrite G in L4. cbn in L4. subst. cbn in B. lia. }
  assert (E0 : nth_error (groups c) 0 = Some g) by (rewrite G; reflexivity). destruct (g_facts c rows _ _ I ltac:(lia) W0 0 g E0) as (G1 & G2 & G3 & G4 & G5 & G6).
  assert (GS : g_start g = 0). { destruct I as (_ & (L1 & _) & _). rewrite G in L1. destruct L1 as [L1 _]. congruence. }
  assert (GB := shape_groups c rows _ _ I SH NB).
  assert (DE : exists c1 k, delete_ids c (repeat 0 (length rows)) = Ok (c1, Some k)).
  { unfold delete_ids. rewrite repeat_length. destruct (length rows) as [|n] eqn:EL; [lia|]. cbn [repeat del_rows].
    destruct (lookup_in c rows 0 (proj1 (proj2 I)) GB ltac:(lia)) as (k & g1 & LK & EK & RK & _). rewrite LK. cbn [rbind]. assert (k = 0 /\ g1 = g) as [-> ->].
    { assert (k = 0) by (symmetry; eapply (lookup_unique c rows 0 k g1); [apply I|exact EK|exact RK|exact E0|]; rewrite GD in G3; lia). subst k. split; [reflexivity|congruence]. }
    rewrite E0. assert (RO : forall m, run_of g (repeat 0 m) = (repeat 0 m, [])).
    { induction m as [|m IH]; cbn [repeat run_of]; [reflexivity|]. replace (in_group g 0) with true by (unfold in_group; lia). rewrite IH. reflexivity. }
    rewrite RO. rewrite GS. replace (map (fun i => i - 0) (0 :: repeat 0 n)) with (repeat 0 (Datatypes.S n)). 2:{ cbn [map repeat]. f_equal. clear. induction n; cbn; [reflexivity|]. f_equal. exact IHn. }
    destruct (zero_delete (g_del g) (Datatypes.S n)) as (g' & kk & EE).
    { eapply GI_ext; [|exact G1]. intros x. unfold loc, none_deleted. apply andb_false_r. }
    { destruct I as (_ & _ & _ & GV). destruct (proj1 (Forall_nth _ _) GV 0 g E0) as [_ K]. assert (NOT_DELETED_ID = (2 ^ 64 - 2)%N) by reflexivity. lia. } { unfold g_count in *. lia. } { lia. }
    rewrite EE. cbn [rbind]. destruct n; cbn; eauto. }
  destruct DE as (c1 & k & DE). exists c1. split; [exact E|].
  destruct (del_sound (length (repeat 0 (length rows))) (repeat 0 (length rows)) c 0 rows none_deleted 0%N c1 (Some k) I R GB ltac:(rewrite repeat_length; assert (NOT_DELETED_ID = (2 ^ 64 - 2)%N) by reflexivity; lia) DE) as (d' & o' & I' & EF & EO & S' & R' & _). destruct o' as [m|]; [|discriminate]. destruct EF as (EF & _).
  destruct (repeat 0 (length rows)) as [|z zs] eqn:ER; [destruct (length rows); [lia|discriminate]|]. rewrite <- ER in *. rewrite DE. cbn [rbind]. rewrite repeat_length. split; [reflexivity|].
  rewrite (scan_all_ok c1 rows d' _ I'); [|lia|rewrite repeat_length; assert (NOT_DELETED_ID = (2 ^ 64 - 2)%N) by reflexivity; lia]. rewrite R'. f_equal.
  destruct rows as [|a rows]; [cbn in B; lia|]. change (pairs 0 (a :: rows)) with ((0, a) :: pairs 1 rows). unfold keep. cbn [filter fst]. rewrite EF. cbn [length repeat mem existsb Nat.eqb orb none_deleted negb tl].
  rewrite filter_all; [apply pairs_snd|]. intros [p x] H. apply pairs_nth in H. cbn [fst]. rewrite EF. unfold none_deleted. cbn [orb]. destruct (mem p _) eqn:M; [|reflexivity]. apply mem_in in M. apply repeat_spec in M. lia.
Qed.

Lemma output_fits c rows d w chunk : Inv c rows d w -> gsize c = CAP -> row_start c = 0 -> shape c -> length rows + length chunk <= CAP -> exists c', insert c [chunk] = Ok (c', chunk) /\ Inv c' (rows ++ chunk) d w.
Proof.
  intros I S R SH B. destruct (insert_inv c [chunk] rows d w I) as (c' & rest & E & I' & _). cbn [concat] in I'. rewrite app_nil_r in I'. exists c'. split; [|exact I']. rewrite E. do 2 f_equal. revert E. unfold insert, init_append. assert (CB := CAP_big).
  set (c1 := match groups c with [] => new_group c (row_start c) | _ => c end).
  assert (G : exists pre g, groups c1 = pre ++ [g] /\ g_count g + length chunk <= CAP /\ gsize c1 = CAP).
  { subst c1. destruct (groups c) as [|g gs] eqn:G.
    - exists [], {| g_start := row_start c; g_data := []; g_del := fresh 0 |}. unfold new_group, with_groups. cbn [groups gsize]. rewrite G. cbn [app]. split; [reflexivity|]. split; [unfold g_count; cbn [g_del fresh r_count]; lia|exact S].
    - assert (NE : groups c <> []) by (rewrite G; discriminate). destruct (split_last _ NE) as (pre & l & EL). exists pre, l. split; [exact EL|]. split; [|exact S]. destruct I as (_ & L & _). pose proof (layout_sum _ _ L) as SM. rewrite EL, map_app, sum_app in SM. cbn in SM. lia. }
  destruct G as (pre & g & G & GC & S1). replace (length (groups c1) - 1) with (length pre) by (rewrite G, app_length; cbn; lia). rewrite G, nth_mid. cbn [rbind appends]. unfold append. cbn [a_cur a_off].
  remember (Datatypes.S (length chunk)) as f eqn:EF. cbn [append_loop]. rewrite G, nth_mid, S1. replace (g_count g <=? CAP) with true by lia. replace (Nat.min (length chunk) (CAP - g_count g)) with (length chunk) by lia. rewrite Nat.sub_diag. cbn [Nat.eqb rbind]. destruct (finalize _ _); cbn [rbind]; congruence.
Qed.

(** *** the statements of the properties *)
Lemma lookup_all (c : coll) rows : layout c rows -> (N.of_nat (length (groups c)) < 2 ^ 63)%N ->
  (forall id, row_start c <= id < row_start c + length rows -> exists k g, lookup (groups c) id = Ok (Some k) /\ nth_error (groups c) k = Some g /\
      g_start g <= id < g_start g + g_count g /\ nth_error (g_data g) (id - g_start g) = nth_error rows (id - row_start c) /\
      forall j h, nth_error (groups c) j = Some h -> g_start h <= id < g_start h + g_count h -> j = k) /\
  (forall id, row_start c + length rows <= id -> lookup (groups c) id = Ok None).
Proof.
  intros L B. split; [|intros id H; apply (lookup_out c rows id L B H)]. intros id H. destruct (lookup_in c rows id L B H) as (k & g & H1 & H2 & H3 & H4). exists k, g. split; [exact H1|]. split; [exact H2|]. split; [exact H3|]. split; [exact H4|].
  intros j h. apply (lookup_unique c rows id k g L H2 H3).
Qed.
Lemma new_layout size start (ops : list (op A)) : 0 < size -> Forall (op_ok size) ops ->
  exists c, run {| gsize := size; row_start := start; total := 0; groups := [] |} ops = Ok c /\ layout c (concat (map rows_of ops)) /\ gsize c = size /\ row_start c = start.
Proof. intros Z F. apply (run_layout size Z ops {| gsize := size; row_start := start; total := 0; groups := [] |} []); auto. unfold layout. cbn. auto. Qed.
Lemma acts_select l c os : bound [] 0 l -> acts (@new_table A) l = Ok (c, os) -> exists rows d, history [] none_deleted l os rows d /\
  (length rows <= CAP -> forall f limit, select_rows c f limit = Ok (up_to limit (filter (satisfies f) (live rows d)))).
Proof.
  intros B E. destruct (after_acts l c os B E) as (rows & d & w & H & I & S & R & SH & W & _). exists rows, d. split; [exact H|]. intros L f limit. rewrite up_to_cut. apply (select_rows_small c rows d w); auto. lia.
Qed.
Lemma acts_delete l c os : bound [] 0 l -> (N.of_nat (del_ids l) + 2000 < NOT_DELETED_ID)%N -> acts (@new_table A) l = Ok (c, os) -> exists rows d, history [] none_deleted l os rows d /\
  (length rows <= CAP -> forall f limit, f <> None \/ (exists r, r < length rows /\ d r = true) ->
   exists c', delete_stmt c f limit = Ok (c', Some (length (victims f rows d limit))) /\ scan_all c' None = Ok (live rows (fun r => d r || mem r (victims f rows d limit)))).
Proof.
  intros B B2 E.
  destruct (acts_sound_w l c os B B2 E) as (rows & d & w & H & I & S & R & SH & W). exists rows, d. split; [exact H|]. intros L f limit C. assert (CN : N.of_nat CAP = 1024%N) by reflexivity.
  destruct (delete_small c rows d w f limit I S R SH ltac:(lia) L C) as (c' & d' & w' & D1 & D2 & D3 & D4 & D5 & D6). exists c'. split; [exact D1|].
  rewrite (scan_all_ok c' rows d' w' D2) by (auto; lia). rewrite D5, live_eq. do 2 f_equal. unfold keep. apply filter_eq. intros x _. rewrite D6. reflexivity.
Qed.

Lemma moderate_bound (l : list (act A)) : moderate l -> bound [] 0 l /\ (N.of_nat (del_ids l) + 2000 < NOT_DELETED_ID)%N.
Proof. unfold moderate, bound. assert (NOT_DELETED_ID = (2 ^ 64 - 2)%N) by reflexivity. cbn [length]. lia. Qed.
Lemma fetch_table (c : coll) rows ids : layout c rows -> (N.of_nat (length (groups c)) < 2 ^ 63)%N -> row_start c = 0 ->
  fetch_rows c ids = Ok (flat_map (fun i => match nth_error rows i with Some a => [a] | None => [] end) ids).
Proof.
  intros L B R. rewrite (fetch_ok c rows ids L B); [|rewrite R; apply Forall_forall; lia]. f_equal. rewrite R. induction ids as [|i ids IH]; cbn [pick flat_map]; [reflexivity|]. rewrite Nat.sub_0_r, IH. destruct (nth_error rows i); reflexivity.
Qed.
Lemma acts_delete_live (l : list (act A)) c os ids : moderate (l ++ [Del ids]) -> acts new_table l = Ok (c, os) ->
  exists rows d, history [] none_deleted l os rows d /\
   (NoDup ids -> (forall r, In r ids -> r < length rows /\ d r = false) -> exists c', delete_ids c ids = Ok (c', Some (length ids))).
Proof.
  intros M E. unfold moderate, new_rows, del_ids in M. rewrite !map_app, !sum_app in M. fold (new_rows l) in M. fold (del_ids l) in M. cbn [map list_sum] in M. assert (ND : NOT_DELETED_ID = (2 ^ 64 - 2)%N) by reflexivity.
  assert (B : bound [] 0 l) by (unfold bound; cbn [length]; lia). destruct (acts_sound l new_table [] none_deleted 0 c os Inv_new eq_refl (or_introl eq_refl) B E) as (rows & d & w & H & I & S & R & SH & W & X). exists rows, d. split; [exact H|].
  intros N LV. apply (del_total (length ids) ids c 0 rows d w I R (shape_groups c rows d w I SH X)); auto. cbn in M. lia.
Qed.
Lemma acts_output (l : list (act A)) c os : moderate l -> acts new_table l = Ok (c, os) -> exists rows d, history [] none_deleted l os rows d /\
  forall chunk, length rows + length chunk <= CAP -> exists c', insert c [chunk] = Ok (c', chunk) /\ scan_all c' None = Ok (live (rows ++ chunk) d).
Proof.
  intros M E. destruct (moderate_bound l M) as [B _]. destruct (after_acts l c os B E) as (rows & d & w & H & I & S & R & SH & W & _). exists rows, d. split; [exact H|]. intros chunk L.
  destruct (output_fits c rows d w chunk I S R SH L) as (c' & E' & I'). exists c'. split; [exact E'|]. destruct (insert_inv c [chunk] rows d w I) as (c2 & rest & E2 & _ & S2 & R2). rewrite E' in E2. inversion E2; subst.
  rewrite (scan_all_ok c2 _ d w I') by lia. rewrite R2, R. reflexivity.
Qed.
End P.
