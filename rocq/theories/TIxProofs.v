From Verif Require Import Bytes Outcome IndexingModel VecModel VecProofs TIxModel TIxSpec.
Require Import Permutation Sorted.
Local Open Scope nat_scope.
Local Opaque VCAP.

(** ** Sorted entries *)
Definition ord (a b : Z * nat) : Prop := (fst a <= fst b)%Z.
Notation sorted := (StronglySorted ord).

Lemma sorted_app a b : sorted (a ++ b) <-> sorted a /\ sorted b /\ (forall x y, In x a -> In y b -> ord x y).
Proof.
  induction a as [|x a IH]; cbn [app].
  - split; [intros H; split; [constructor|split; [assumption|intros ? ? []]]|intros (_ & H & _); exact H].
  - split.
    + intros H. inversion H as [|? ? S F]; subst. apply IH in S as (S1 & S2 & C).
      rewrite Forall_app in F. destruct F as (F1 & F2).
      split; [constructor; assumption|]. split; [assumption|].
      intros u w [<-|U] W; [rewrite Forall_forall in F2; exact (F2 _ W)|exact (C _ _ U W)].
    + intros (S1 & S2 & C). inversion S1 as [|? ? S F]; subst. constructor.
      * apply IH. split; [assumption|]. split; [assumption|]. intros u w U W. apply C; [right; assumption|assumption].
      * apply Forall_app. split; [assumption|]. apply Forall_forall. intros w W. apply C; [left; reflexivity|assumption].
Qed.

Lemma filter_none {A} (p : A -> bool) l : (forall x, In x l -> p x = false) -> filter p l = [].
Proof. induction l as [|x l IH]; cbn; intros H; [reflexivity|]. rewrite (H x) by (left; reflexivity). apply IH. intros y Y. apply H. right. assumption. Qed.
Lemma filter_all {A} (p : A -> bool) l : (forall x, In x l -> p x = true) -> filter p l = l.
Proof. induction l as [|x l IH]; cbn; intros H; [reflexivity|]. rewrite (H x) by (left; reflexivity). f_equal. apply IH. intros y Y. apply H. right. assumption. Qed.

Definition lt_ (v : Z) (e : Z * nat) : bool := (fst e <? v)%Z.
Definition eq_ (v : Z) (e : Z * nat) : bool := (fst e =? v)%Z.
Definition gt_ (v : Z) (e : Z * nat) : bool := (v <? fst e)%Z.

Lemma sorted_prefix (p : Z * nat -> bool) l : sorted l -> (forall x y, ord x y -> p y = true -> p x = true) ->
  firstn (prefix p l) l = filter p l /\ skipn (prefix p l) l = filter (fun e => negb (p e)) l.
Proof.
  intros S D. induction S as [|x l S IH F]; [split; reflexivity|]. cbn [prefix filter].
  destruct (p x) eqn:P; cbn [firstn skipn negb].
  - destruct IH as (A & B). split; [f_equal; exact A|exact B].
  - rewrite Forall_forall in F. split.
    + symmetry. apply filter_none. intros y Y. destruct (p y) eqn:Q; [|reflexivity]. rewrite (D x y (F _ Y) Q) in P. discriminate.
    + f_equal. symmetry. apply filter_all. intros y Y. destruct (p y) eqn:Q; [|reflexivity]. rewrite (D x y (F _ Y) Q) in P. discriminate.
Qed.

Lemma filter_filter {A} (p q : A -> bool) l : filter p (filter q l) = filter (fun x => q x && p x) l.
Proof. induction l as [|x l IH]; [reflexivity|]. cbn [filter]. destruct (q x) eqn:Q; cbn [filter andb]; rewrite IH; reflexivity. Qed.
Lemma filter_eq {A} (p q : A -> bool) l : (forall x, In x l -> p x = q x) -> filter p l = filter q l.
Proof.
  induction l as [|x l IH]; [reflexivity|]. intros H. cbn [filter]. rewrite (H x) by (left; reflexivity).
  rewrite IH; [reflexivity|]. intros y Y. apply H. right. exact Y.
Qed.

Lemma lower_spec v l : sorted l -> lower_range v l = filter (lt_ v) l.
Proof. intros S. apply (sorted_prefix (lt_ v) l S). unfold ord, lt_. intros x y O H. apply Z.ltb_lt in H. apply Z.ltb_lt. lia. Qed.
Lemma upper_spec v l : sorted l -> upper_range v l = filter (gt_ v) l.
Proof.
  intros S. unfold upper_range, ub.
  rewrite (proj2 (sorted_prefix (fun e => (fst e <=? v)%Z) l S ltac:(unfold ord; intros x y O H; apply Z.leb_le in H; apply Z.leb_le; lia))).
  apply filter_eq. intros x _. unfold gt_. rewrite Z.ltb_antisym. reflexivity.
Qed.
Lemma lb_le_ub v l : lb v l <= ub v l.
Proof.
  unfold lb, ub. induction l as [|x l IH]; [reflexivity|]. cbn [prefix].
  destruct (Z.ltb_spec (fst x) v), (Z.leb_spec (fst x) v); lia.
Qed.
Lemma skipn_firstn {A} (m n : nat) (l : list A) : firstn (n - m) (skipn m l) = skipn m (firstn n l).
Proof. symmetry. apply skipn_firstn_comm. Qed.
Lemma firstn_prefix p q l : (forall x, p x = true -> q x = true) -> prefix p (firstn (prefix q l) l) = prefix p l.
Proof.
  intros D. induction l as [|x l IH]; [reflexivity|]. cbn [prefix]. destruct (q x) eqn:Q.
  - cbn [firstn prefix]. rewrite IH. reflexivity.
  - cbn [firstn prefix]. destruct (p x) eqn:P; [|reflexivity]. rewrite (D _ P) in Q. discriminate.
Qed.
Lemma find_spec v l : sorted l -> find_range v l = filter (eq_ v) l.
Proof.
  intros S. unfold find_range. rewrite skipn_firstn. unfold lb, ub.
  assert (D : forall x, lt_ v x = true -> (fst x <=? v)%Z = true).
  { unfold lt_. intros x H. apply Z.ltb_lt in H. apply Z.leb_le. lia. }
  pose proof (sorted_prefix (fun e => (fst e <=? v)%Z) l S ltac:(unfold ord; intros x y O H; apply Z.leb_le in H; apply Z.leb_le; lia)) as (F & _).
  rewrite <- (firstn_prefix (fun e => (fst e <? v)%Z) (fun e => (fst e <=? v)%Z) l D). rewrite F.
  assert (S' : sorted (filter (fun e => (fst e <=? v)%Z) l)).
  { rewrite <- F. rewrite <- (firstn_skipn (prefix (fun e => (fst e <=? v)%Z) l) l) in S. apply sorted_app in S. tauto. }
  rewrite (proj2 (sorted_prefix (fun e => (fst e <? v)%Z) _ S' ltac:(unfold ord; intros x y O H; apply Z.ltb_lt in H; apply Z.ltb_lt; lia))).
  rewrite filter_filter. apply filter_eq. intros x _. unfold eq_.
  destruct (Z.leb_spec (fst x) v), (Z.ltb_spec (fst x) v), (Z.eqb_spec (fst x) v); cbn [andb negb]; try reflexivity; lia.
Qed.

Lemma filter_split {A} (p q r : A -> bool) l : (forall x, r x = p x || q x) -> (forall x, p x && q x = false) ->
  Permutation (filter p l ++ filter q l) (filter r l).
Proof.
  intros O D. induction l as [|x l IH]; [constructor|]. cbn [filter]. rewrite O. pose proof (D x) as E.
  destruct (p x), (q x); cbn [orb andb app] in *; try discriminate.
  - constructor. exact IH.
  - transitivity (x :: filter p l ++ filter q l); [symmetry; apply Permutation_middle|constructor; exact IH].
  - exact IH.
Qed.
Lemma search_spec c v l : sorted l -> Permutation (search c v l) (filter (fun e => holds c (fst e) v) l).
Proof.
  intros S. unfold search.
  destruct c; rewrite ?(find_spec v l S), ?(lower_spec v l S), ?(upper_spec v l S); cbn [holds].
  - reflexivity.
  - apply filter_split; intros x; unfold lt_, gt_; destruct (Z.ltb_spec (fst x) v), (Z.ltb_spec v (fst x)), (Z.eqb_spec (fst x) v); cbn; try reflexivity; lia.
  - reflexivity.
  - reflexivity.
  - apply filter_split; intros x; unfold eq_, gt_; destruct (Z.leb_spec v (fst x)), (Z.ltb_spec v (fst x)), (Z.eqb_spec (fst x) v); cbn; try reflexivity; lia.
  - apply filter_split; intros x; unfold lt_, eq_; destruct (Z.ltb_spec (fst x) v), (Z.leb_spec (fst x) v), (Z.eqb_spec (fst x) v); cbn; try reflexivity; lia.
Qed.

Lemma put_perm k id l : Permutation (put k id l) ((k, id) :: l).
Proof. unfold put. rewrite <- Permutation_middle. rewrite firstn_skipn. reflexivity. Qed.
Lemma put_sorted k id l : sorted l -> sorted (put k id l).
Proof.
  intros S. unfold put, ub.
  pose proof (sorted_prefix (fun e => (fst e <=? k)%Z) l S ltac:(unfold ord; intros x y O H; apply Z.leb_le in H; apply Z.leb_le; lia)) as (A & B).
  pose proof S as S'. rewrite <- (firstn_skipn (prefix (fun e => (fst e <=? k)%Z) l) l) in S'. apply sorted_app in S' as (S1 & S2 & C).
  apply sorted_app. split; [exact S1|]. split.
  - constructor; [exact S2|]. apply Forall_forall. intros x X. rewrite B in X. apply filter_In in X as (_ & X).
    unfold ord. cbn [fst]. destruct (Z.leb_spec (fst x) k); [discriminate|lia].
  - intros x y X [<-|Y]; [|exact (C _ _ X Y)]. rewrite A in X. apply filter_In in X as (_ & X). apply Z.leb_le in X. exact X.
Qed.

Lemma prefix_le p l : prefix p l <= length l.
Proof. induction l as [|x l IH]; cbn [prefix length]; [lia|]. destruct (p x); lia. Qed.
Lemma ub_le k l : ub k l <= length l.
Proof. apply prefix_le. Qed.
Lemma lb_le k l : lb k l <= length l.
Proof. apply prefix_le. Qed.
Lemma drop_spec ch k l : sorted l -> In k (map fst l) ->
  exists id l', drop ch k l = Ok l' /\ sorted l' /\ Permutation l ((k, id) :: l').
Proof.
  intros SS I. unfold drop.
  assert (L : length (find_range k l) = ub k l - lb k l).
  { unfold find_range. rewrite firstn_length, skipn_length. pose proof (ub_le k l). lia. }
  set (n := ub k l - lb k l) in *.
  assert (N : n <> 0).
  { intros Z0. rewrite Z0 in L. apply in_map_iff in I as (e & <- & E).
    assert (X : In e (find_range (fst e) l)); [rewrite (find_spec _ _ SS); apply filter_In; split; [exact E|apply Z.eqb_refl]|].
    destruct (find_range (fst e) l); [destruct X|discriminate]. }
  destruct (Nat.eqb_spec n 0) as [|_]; [contradiction|].
  set (m := ch k l mod n). assert (M : m < n) by (apply Nat.mod_upper_bound; exact N).
  destruct (nth_error (find_range k l) m) as [[k' id]|] eqn:E.
  2:{ apply nth_error_None in E. lia. }
  assert (K : k' = k).
  { pose proof (nth_error_In _ _ E) as X. rewrite (find_spec _ _ SS) in X. apply filter_In in X as (_ & X). apply Z.eqb_eq in X. exact X. }
  subst k'.
  assert (E' : nth_error l (lb k l + m) = Some (k, id)).
  { unfold find_range in E. fold n in E. pose proof (lb_le k l) as B. clearbody m n. revert E B. generalize (lb k l) as q. intros q E B.
    rewrite <- (firstn_skipn q l) at 1. rewrite nth_error_app2 by (rewrite firstn_length; lia).
    rewrite firstn_length, (Nat.min_l _ _ B). replace (q + m - q) with m by lia.
    rewrite <- (firstn_skipn n (skipn q l)). rewrite nth_error_app1; [exact E|].
    apply nth_error_Some. rewrite E. discriminate. }
  apply nth_error_split in E' as (a & b & -> & P). set (p := lb k (a ++ (k, id) :: b) + m) in *.
  exists id, (a ++ b). rewrite <- P.
  rewrite firstn_app, firstn_all, Nat.sub_diag, firstn_O, app_nil_r.
  replace (skipn (S (length a)) (a ++ (k, id) :: b)) with b.
  2:{ rewrite skipn_app. rewrite skipn_all2 by lia. replace (S (length a) - length a) with 1 by lia. reflexivity. }
  split; [reflexivity|]. split; [|symmetry; apply Permutation_middle].
  apply sorted_app in SS as (S1 & S2 & C). inversion S2 as [|? ? S3 F]; subst. apply sorted_app. split; [exact S1|]. split; [exact S3|].
  intros x y X Y. apply C; [exact X|right; exact Y].
Qed.

Lemma gone_spec ch ks : forall l M U, sorted l -> Permutation l (M ++ U) -> Permutation (map fst M) ks ->
  (forall x y, In x M -> In y U -> fst x <> fst y) ->
  exists l', index_gone ch ks l = Ok l' /\ sorted l' /\ Permutation l' U.
Proof.
  induction ks as [|k ks IH]; intros l M U S P Q D; cbn [index_gone].
  - apply Permutation_sym, Permutation_nil in Q. destruct M; [|discriminate]. exists l. split; [reflexivity|]. split; assumption.
  - assert (I : In k (map fst M)) by (rewrite Q; left; reflexivity).
    destruct (drop_spec ch k l S) as (id & l1 & E & S1 & P1).
    { rewrite P, map_app. apply in_or_app. left. exact I. }
    rewrite E. cbn [rbind].
    assert (J : In (k, id) (M ++ U)) by (rewrite <- P, P1; left; reflexivity).
    apply in_app_or in J as [J|J].
    2:{ apply in_map_iff in I as (x & X & I). exfalso. apply (D x (k, id) I J). exact X. }
    apply in_split in J as (M1 & M2 & ->).
    apply (IH l1 (M1 ++ M2) U S1).
    + apply (Permutation_cons_inv (a := (k, id))). rewrite <- P1, P. rewrite <- !app_assoc. cbn [app]. symmetry. apply Permutation_middle.
    + apply (Permutation_cons_inv (a := k)). rewrite <- Q. rewrite !map_app. cbn [map fst]. apply Permutation_middle.
    + intros x y X Y. apply D; [|exact Y]. apply in_app_or in X. apply in_or_app. cbn [In]. tauto.
Qed.

(** ** Rows by id *)
Fixpoint live_from (k : nat) (rs : list (list Z * bool)) : list (nat * list Z) :=
  match rs with [] => [] | (r, b) :: t => if b then (k, r) :: live_from (S k) t else live_from (S k) t end.
Lemma live_live st : live st = live_from 0 (rows st).
Proof.
  unfold live. generalize 0 as k. induction (rows st) as [|[r b] t IH]; intros k; [reflexivity|].
  cbn [length seq combine flat_map live_from]. rewrite IH. destruct b; reflexivity.
Qed.
Lemma live_app k a b : live_from k (a ++ b) = live_from k a ++ live_from (k + length a) b.
Proof.
  revert k. induction a as [|[r x] a IH]; intros k; cbn [app live_from length]; [rewrite Nat.add_0_r; reflexivity|].
  rewrite IH. replace (S k + length a) with (k + S (length a)) by lia. destruct x; reflexivity.
Qed.
Lemma live_new k xs : live_from k (map (fun r => (r, true)) xs) = combine (seq k (length xs)) xs.
Proof. revert k. induction xs as [|x xs IH]; intros k; [reflexivity|]. cbn [map live_from length seq combine]. rewrite IH. reflexivity. Qed.
Lemma live_ge k rs p : In p (live_from k rs) -> k <= fst p.
Proof.
  revert k. induction rs as [|[r b] t IH]; intros k; cbn [live_from]; [intros []|].
  destruct b; [intros [<-|H]; [cbn; lia|]|intros H]; specialize (IH _ H); lia.
Qed.
Lemma live_nodup k rs : NoDup (map fst (live_from k rs)).
Proof.
  revert k. induction rs as [|[r b] t IH]; intros k; cbn [live_from]; [constructor|].
  destruct b; [|apply IH]. cbn [map fst]. constructor; [|apply IH].
  intros H. apply in_map_iff in H as (p & E & H). apply live_ge in H. lia.
Qed.
Lemma live_nth k rs i r : In (k + i, r) (live_from k rs) <-> nth_error rs i = Some (r, true).
Proof.
  revert k i. induction rs as [|[x b] t IH]; intros k i; cbn [live_from].
  - destruct i; split; [intros []|discriminate|intros []|discriminate].
  - destruct i as [|i]; cbn [nth_error].
    + destruct b; cbn [In]; split.
      * intros [E|H]; [injection E as _ ->; reflexivity|]. apply live_ge in H. cbn [fst] in H. lia.
      * intros E. injection E as ->. left. f_equal. lia.
      * intros H. apply live_ge in H. cbn [fst] in H. lia.
      * discriminate.
    + rewrite <- (IH (S k) i). replace (S k + i) with (k + S i) by lia. destruct b; [|reflexivity].
      cbn [In]. split; [intros [E|H]; [injection E as E; lia|exact H]|right; assumption].
Qed.
Lemma live_mark1 k rs i x b : nth_error rs i = Some (x, b) ->
  live_from k (list_set rs i (x, false)) = filter (fun p => negb (fst p =? k + i)) (live_from k rs).
Proof.
  revert k i. induction rs as [|[y c] t IH]; intros k i; destruct i as [|i]; cbn [nth_error list_set live_from]; try discriminate.
  - intros E. injection E as -> ->. rewrite Nat.add_0_r.
    assert (F : filter (fun p => negb (fst p =? k)) (live_from (S k) t) = live_from (S k) t).
    { apply filter_all. intros p P. apply live_ge in P. destruct (Nat.eqb_spec (fst p) k); [lia|reflexivity]. }
    destruct b; [cbn [filter fst]; rewrite Nat.eqb_refl; cbn [negb]|]; symmetry; exact F.
  - intros E. rewrite (IH (S k) i E). replace (S k + i) with (k + S i) by lia. destruct c; [|reflexivity].
    cbn [filter fst]. destruct (Nat.eqb_spec k (k + S i)); [lia|]. reflexivity.
Qed.
Lemma live_mark ids : forall rs, live_from 0 (mark rs ids) = filter (fun p => negb (existsb (Nat.eqb (fst p)) ids)) (live_from 0 rs).
Proof.
  induction ids as [|i ids IH]; intros rs; cbn [mark existsb].
  - symmetry. apply filter_all. reflexivity.
  - rewrite IH. destruct (nth_error rs i) as [[x b]|] eqn:E.
    + rewrite (live_mark1 0 rs i x b E). cbn [plus]. rewrite filter_filter. apply filter_eq. intros p _. rewrite negb_orb. reflexivity.
    + apply filter_eq. intros [j r] P. cbn [fst]. change j with (0 + j) in P. apply live_nth in P.
      destruct (Nat.eqb_spec j i) as [->|]; [congruence|reflexivity].
Qed.
Lemma length_mark ids : forall rs, length (mark rs ids) = length rs.
Proof.
  induction ids as [|i ids IH]; intros rs; cbn [mark]; [reflexivity|]. rewrite IH.
  destruct (nth_error rs i) as [[x b]|]; [apply length_list_set|reflexivity].
Qed.
Lemma live_write1 k rs i x b j v : nth_error rs i = Some (x, b) ->
  live_from k (list_set rs i (list_set x j v, b)) = map (fun p => if fst p =? k + i then (fst p, list_set (snd p) j v) else p) (live_from k rs).
Proof.
  revert k i. induction rs as [|[y c] t IH]; intros k i; destruct i as [|i]; cbn [nth_error list_set live_from]; try discriminate.
  - intros E. injection E as -> ->. rewrite Nat.add_0_r.
    assert (F : map (fun p => if fst p =? k then (fst p, list_set (snd p) j v) else p) (live_from (S k) t) = live_from (S k) t).
    { rewrite <- (map_id (live_from (S k) t)) at 2. apply map_ext_in. intros p P. apply live_ge in P. destruct (Nat.eqb_spec (fst p) k); [lia|reflexivity]. }
    destruct b; [cbn [map fst snd]; rewrite Nat.eqb_refl; f_equal|]; symmetry; exact F.
  - intros E. rewrite (IH (S k) i E). replace (S k + i) with (k + S i) by lia. destruct c; [|reflexivity].
    cbn [map fst]. destruct (Nat.eqb_spec k (k + S i)); [lia|]. reflexivity.
Qed.
Lemma live_write j v ids : forall rs, live_from 0 (overwrite rs j v ids) =
  map (fun p => if existsb (Nat.eqb (fst p)) ids then (fst p, list_set (snd p) j v) else p) (live_from 0 rs).
Proof.
  induction ids as [|i ids IH]; intros rs; cbn [overwrite existsb].
  - rewrite <- (map_id (live_from 0 rs)) at 1. apply map_ext. reflexivity.
  - rewrite IH. destruct (nth_error rs i) as [[x b]|] eqn:E.
    + rewrite (live_write1 0 rs i x b j v E). cbn [plus]. rewrite map_map. apply map_ext. intros [a r]. cbn [fst snd].
      destruct (a =? i) eqn:A; cbn [fst snd orb]; [|reflexivity].
      destruct (existsb (Nat.eqb a) ids); [rewrite list_set_twice|]; reflexivity.
    + apply map_ext_in. intros [a r] P. cbn [fst]. change a with (0 + a) in P. apply live_nth in P.
      destruct (Nat.eqb_spec a i) as [->|]; [congruence|reflexivity].
Qed.
Lemma length_overwrite j v ids : forall rs, length (overwrite rs j v ids) = length rs.
Proof.
  induction ids as [|i ids IH]; intros rs; cbn [overwrite]; [reflexivity|]. rewrite IH.
  destruct (nth_error rs i) as [[x b]|]; [apply length_list_set|reflexivity].
Qed.
Lemma set_cell_spec r j v : set_cell r j v = list_set r j v.
Proof. revert j. induction r as [|x r IH]; intros [|j]; cbn; try reflexivity. rewrite IH. reflexivity. Qed.

(** ** The invariant *)
Definition key (col : nat) (p : nat * list Z) : Z * nat := (cell (snd p) col, fst p).
Definition inv (ix : option nat) (used : bool) (t : list (list Z)) (st : state) : Prop :=
  map snd (live st) = t /\ (used = false -> rows st = []) /\
  match ix, idx st with
  | None, None => True
  | Some col, Some x => icol x = col /\ sorted (ents x) /\ Permutation (ents x) (map (key col) (live st))
  | _, _ => False
  end.

Definition fetch (st : state) (e : Z * nat) : list (nat * list Z) :=
  match nth_error (rows st) (snd e) with Some (r, _) => [(snd e, r)] | None => [] end.
Lemma fetch_keys st col m : (forall p, In p m -> In p (live st)) -> flat_map (fetch st) (map (key col) m) = m.
Proof.
  induction m as [|[i r] m IH]; intros H; [reflexivity|]. cbn [map flat_map]. rewrite IH by (intros p P; apply H; right; exact P).
  unfold fetch, key. cbn [fst snd]. specialize (H (i, r) (or_introl eq_refl)). rewrite live_live in H. change i with (0 + i) in H.
  apply live_nth in H. cbn [plus] in H. rewrite H. reflexivity.
Qed.
Lemma fetch_perm st col l m : (forall p, In p m -> In p (live st)) -> Permutation l (map (key col) m) ->
  Permutation (flat_map (fetch st) l) m /\ (forall e, In e l -> length (fetch st e) = 1).
Proof.
  intros H P. split.
  - rewrite <- (fetch_keys st col m H). apply Permutation_flat_map. exact P.
  - intros e E. rewrite P in E. apply in_map_iff in E as ([i r] & <- & E). apply H in E. rewrite live_live in E.
    change i with (0 + i) in E. apply live_nth in E. unfold fetch, key. cbn [fst snd]. cbn [plus] in E. rewrite E. reflexivity.
Qed.
Lemma length_flat_one {A B} (f : A -> list B) l : (forall e, In e l -> length (f e) = 1) -> length (flat_map f l) = length l.
Proof.
  induction l as [|x l IH]; intros H; [reflexivity|]. cbn [flat_map length]. rewrite app_length, (H x), IH; [reflexivity| |left; reflexivity].
  intros e E. apply H. right. exact E.
Qed.
Definition upto (lim : option nat) (n : nat) : nat := match lim with None => n | Some k => Nat.min k n end.
Lemma length_cut {A} lim (l : list A) : length (cut lim l) = upto lim (length l).
Proof. destruct lim; [apply firstn_length|reflexivity]. Qed.
Lemma cut_rest {A} lim (l : list A) : exists r, l = cut lim l ++ r.
Proof. destruct lim as [n|]; [exists (skipn n l); symmetry; apply firstn_skipn|exists []; symmetry; apply app_nil_r]. Qed.

Lemma filter_map {A B} (f : A -> B) (p : B -> bool) l : filter p (map f l) = map f (filter (fun x => p (f x)) l).
Proof. induction l as [|x l IH]; [reflexivity|]. cbn [map filter]. destruct (p (f x)); cbn [map]; rewrite IH; reflexivity. Qed.

(** The scan finds the live rows the condition accepts. *)
Lemma scan_spec ix used t st cd lim : inv ix used t st ->
  exists rest, Permutation (scan st cd lim ++ rest) (filter (fun p => accepts cd (snd p)) (live st)) /\
  length (scan st cd lim) = upto lim (length (filter (fun p => accepts cd (snd p)) (live st))).
Proof.
  intros (_ & _ & I). unfold scan.
  assert (F : exists rest, Permutation (scan_full st cd lim ++ rest) (filter (fun p => accepts cd (snd p)) (live st)) /\
    length (scan_full st cd lim) = upto lim (length (filter (fun p => accepts cd (snd p)) (live st)))).
  { unfold scan_full. destruct (cut_rest lim (filter (fun p => accepts cd (snd p)) (live st))) as (r & R). exists r.
    rewrite <- R. split; [reflexivity|apply length_cut]. }
  destruct cd as [[[j c] v]|]; [|exact F]. destruct (idx st) as [x|]; [|exact F].
  destruct (Nat.eqb_spec j (icol x)) as [->|_]; [|exact F]. destruct ix as [col|]; [|contradiction]. destruct I as (<- & S & P).
  clear F. unfold scan_index. set (m := filter _ (live st)).
  assert (Q : Permutation (search c v (ents x)) (map (key (icol x)) m)).
  { rewrite (search_spec c v _ S). unfold m. transitivity (filter (fun e => holds c (fst e) v) (map (key (icol x)) (live st))).
    - clear - P. induction P; cbn [filter]; [constructor| | |etransitivity; eassumption].
      + destruct (holds c (fst x0) v); [constructor; assumption|assumption].
      + destruct (holds c (fst x0) v), (holds c (fst y) v); try reflexivity. constructor.
    - rewrite filter_map. reflexivity. }
  assert (M : forall p, In p m -> In p (live st)) by (intros p H; apply filter_In in H; tauto).
  destruct (fetch_perm st (icol x) _ m M Q) as (G & O).
  destruct (cut_rest lim (search c v (ents x))) as (r & R). exists (flat_map (fetch st) r). split.
  - transitivity (flat_map (fetch st) (search c v (ents x))); [|exact G]. rewrite R at 2. rewrite flat_map_app. reflexivity.
  - change (length (flat_map (fetch st) (cut lim (search c v (ents x)))) = upto lim (length m)).
    rewrite length_flat_one.
    + rewrite length_cut, (Permutation_length Q), map_length. reflexivity.
    + intros e E. apply O. rewrite R. apply in_or_app. left. exact E.
Qed.
Lemma scan_all ix used t st cd : inv ix used t st -> Permutation (scan st cd None) (filter (fun p => accepts cd (snd p)) (live st)).
Proof.
  intros I. destruct (scan_spec ix used t st cd None I) as (r & P & L). cbn [upto] in L.
  pose proof (Permutation_length P) as E. rewrite app_length, L in E. destruct r; [|cbn in E; lia]. rewrite app_nil_r in P. exact P.
Qed.
Lemma found_in st cd l : NoDup (map fst (live st)) -> Permutation l (filter (fun p => accepts cd (snd p)) (live st)) ->
  forall p, In p (live st) -> existsb (Nat.eqb (fst p)) (map fst l) = accepts cd (snd p).
Proof.
  intros N P p I. destruct (accepts cd (snd p)) eqn:A.
  - apply existsb_exists. exists (fst p). split; [|apply Nat.eqb_refl]. apply in_map. rewrite P. apply filter_In. split; assumption.
  - destruct (existsb (Nat.eqb (fst p)) (map fst l)) eqn:E; [|reflexivity]. exfalso.
    apply existsb_exists in E as (i & E & Q). apply Nat.eqb_eq in Q. subst i. apply in_map_iff in E as (q & Q & E).
    rewrite P in E. apply filter_In in E as (E & B). 
    assert (p = q); [|congruence]. clear - N I E Q. induction (live st) as [|x m IH]; [destruct I|]. cbn [map] in N. inversion N as [|? ? X N']; subst.
    destruct I as [->|I], E as [->|E]; [reflexivity| | |apply IH; assumption]; exfalso; apply X; [rewrite <- Q|rewrite Q]; apply in_map; assumption.
Qed.

Lemma index_new_spec xs col : forall n id l (m : list (nat * list Z)), id + n = length xs -> sorted l ->
  Permutation l (map (key col) (combine (seq 0 id) (firstn id xs))) ->
  exists l', index_new xs col 0 n id l = Ok l' /\ sorted l' /\ Permutation l' (map (key col) (combine (seq 0 (length xs)) xs)).
Proof.
  induction n as [|n IH]; intros id l m L SS P; cbn [index_new].
  - exists l. rewrite Nat.add_0_r in L. subst id. rewrite firstn_all in P. split; [reflexivity|]. split; assumption.
  - rewrite Nat.add_0_r. unfold chunk_cell. destruct (nth_error xs id) as [r|] eqn:E; [|apply nth_error_None in E; lia]. cbn [rbind].
    apply (IH (S id) _ m); [lia|apply put_sorted; exact SS|].
    rewrite put_perm, P. 
    assert (F : firstn (S id) xs = firstn id xs ++ [r]).
    { clear - E. revert id E. induction xs as [|x xs IH]; intros [|id]; cbn [nth_error]; try discriminate.
      - intros H. injection H as ->. reflexivity.
      - intros H. cbn [firstn]. rewrite <- app_comm_cons. f_equal. apply IH. exact H. }
    rewrite F, seq_S. cbn [plus].
    assert (C : forall (a : list nat) (b : list (list Z)) u w, length a = length b -> combine (a ++ [u]) (b ++ [w]) = combine a b ++ [(u, w)]).
    { induction a as [|? a IHa]; intros [|? b] u w; cbn; try discriminate; [reflexivity|]. intros H. rewrite IHa by lia. reflexivity. }
    rewrite C. 2:{ rewrite seq_length, firstn_length. assert (id < length xs) by (apply nth_error_Some; rewrite E; discriminate). lia. }
    rewrite map_app. cbn [map]. unfold key at 2. cbn [fst snd]. rewrite <- Permutation_cons_append. reflexivity.
Qed.

Definition next_ix (ix : option nat) (s : stmt) : option nat := match s with Create col => Some col | _ => ix end.
Definition next_used (used : bool) (s : stmt) : bool := match s with Insert _ => true | _ => used end.

Lemma meets_ok cd r : meets cd r = accepts cd r.
Proof.
  destruct cd as [[[j c] v]|]; [|reflexivity]. cbn [meets accepts]. unfold cell. generalize (nth j r 0%Z). intros x.
  destruct (Z.compare_spec x v) as [E|E|E]; destruct c; cbn [holds]; symmetry; rewrite ?negb_true_iff, ?negb_false_iff;
    first [apply Z.eqb_eq|apply Z.eqb_neq|apply Z.ltb_lt|apply Z.ltb_ge|apply Z.leb_le|apply Z.leb_gt]; lia.
Qed.
Lemma step_inv ch ix used t st s r : inv ix used t st -> fits ix used t (s :: r) = true ->
  exists st', step ch st s = Ok st' /\ inv (next_ix ix s) (next_used used s) (means t s) st' /\ fits (next_ix ix s) (next_used used s) (means t s) r = true.
Proof.
  intros I G. pose proof I as (T & U & X). destruct s as [col|xs|cd|cd j v]; cbn [step next_ix next_used fits] in *.
  - apply andb_prop in G as (G & G'). destruct used; [discriminate|]. specialize (U eq_refl).
    eexists. split; [reflexivity|]. split; [|exact G']. unfold create. split; [exact T|]. split; [intros _; exact U|]. cbn [idx icol ents].
    split; [reflexivity|]. split; [constructor|]. rewrite live_live. cbn [rows]. rewrite U. constructor.
  - unfold insert. destruct ix as [col|], (idx st) as [x|] eqn:EX; try contradiction.
    + apply andb_prop in G as (G & G'). apply andb_prop in G as (G & _). destruct used; [discriminate|]. specialize (U eq_refl).
      destruct X as (<- & S & P). rewrite live_live, U in P, T. cbn [live_from map] in P, T. subst t. 
      apply Permutation_sym, Permutation_nil in P. rewrite U, P. cbn [length app].
      destruct (index_new_spec xs (icol x) (length xs) 0 [] [] eq_refl) as (l & E & S' & P'); [constructor|constructor|].
      rewrite E. cbn [rbind]. eexists. split; [reflexivity|]. split; [|exact G']. split; [|split; [discriminate|]].
      * rewrite live_live. cbn [rows]. rewrite live_new. cbn [means app]. clear. generalize 0. induction xs as [|y xs IH]; intros k; [reflexivity|].
        cbn [length seq combine map snd]. rewrite IH. reflexivity.
      * cbn [idx icol ents]. split; [reflexivity|]. split; [exact S'|]. rewrite live_live. cbn [rows]. rewrite live_new. exact P'.
    + eexists. split; [reflexivity|]. split; [|exact G]. split; [|split; [discriminate|exact Logic.I]].
      rewrite live_live. cbn [rows means]. rewrite live_app, map_app, live_new, <- live_live, T. f_equal.
      clear. generalize (0 + length (rows st)). induction xs as [|y xs IH]; intros k; [reflexivity|].
      cbn [length seq combine map snd]. rewrite IH. reflexivity.
  - unfold delete. apply andb_prop in G as (G & G'). pose proof (scan_all ix used t st cd I) as P.
    assert (L : live_from 0 (mark (rows st) (map fst (scan st cd None))) = filter (fun p => negb (accepts cd (snd p))) (live st)).
    { rewrite live_mark, <- live_live. apply filter_eq. intros p H. f_equal. apply (found_in st cd); [rewrite live_live; apply live_nodup|exact P|exact H]. }
    assert (T' : map snd (live_from 0 (mark (rows st) (map fst (scan st cd None)))) = means t (Delete cd)).
    { rewrite L. cbn [means]. rewrite (filter_ext _ (fun r => negb (accepts cd r)) (fun r => f_equal negb (meets_ok cd r))).
      rewrite <- T, filter_map. reflexivity. }
    assert (U' : used = false -> mark (rows st) (map fst (scan st cd None)) = []).
    { intros H. apply length_zero_iff_nil. rewrite length_mark, (U H). reflexivity. }
    destruct ix as [col|], (idx st) as [x|] eqn:EX; try contradiction.
    + destruct X as (<- & S & Q).
      destruct (gone_spec ch (map (fun p => cell (snd p) (icol x)) (scan st cd None)) (ents x)
        (map (key (icol x)) (filter (fun p => accepts cd (snd p)) (live st)))
        (map (key (icol x)) (filter (fun p => negb (accepts cd (snd p))) (live st))) S) as (l & E & S' & Q').
      * rewrite Q, <- map_app. apply Permutation_map. clear. induction (live st) as [|p l IH]; [constructor|]. cbn [filter].
        destruct (accepts cd (snd p)); cbn [negb app]; [constructor; exact IH|]. rewrite <- Permutation_middle. constructor. exact IH.
      * rewrite map_map. cbn [key fst]. symmetry. apply Permutation_map. exact P.
      * intros a b A B. apply in_map_iff in A as (p & <- & A). apply in_map_iff in B as (q & <- & B).
        apply filter_In in A as (A & A'). apply filter_In in B as (B & B'). cbn [key fst].
        rewrite forallb_forall in G. assert (Hp : In (snd p) t) by (rewrite <- T; apply in_map; exact A).
        specialize (G _ Hp). rewrite forallb_forall in G. assert (Hq : In (snd q) t) by (rewrite <- T; apply in_map; exact B).
        specialize (G _ Hq). rewrite !meets_ok, A', B' in G. cbn [andb] in G. apply negb_true_iff in G. apply Z.eqb_neq in G. exact G.
      * rewrite E. cbn [rbind]. eexists. split; [reflexivity|]. split; [|exact G']. split; [rewrite live_live; exact T'|]. split; [exact U'|].
        cbn [idx icol ents]. split; [reflexivity|]. split; [exact S'|]. rewrite live_live. cbn [rows]. rewrite L. exact Q'.
    + eexists. split; [reflexivity|]. split; [|exact G']. split; [rewrite live_live; exact T'|]. split; [exact U'|exact Logic.I].
  - unfold update. apply andb_prop in G as (G & G'). destruct ix as [col|], (idx st) as [x|] eqn:EX; try contradiction; try discriminate.
    pose proof (scan_all None used t st cd I) as P. eexists. split; [reflexivity|]. split; [|exact G']. split; [|split; [|exact Logic.I]].
    + rewrite live_live. cbn [rows means]. rewrite live_write, map_map, <- T, map_map, <- live_live. apply map_ext_in. intros p H.
      rewrite (found_in st cd _ ltac:(rewrite live_live; apply live_nodup) P p H). rewrite meets_ok. destruct (accepts cd (snd p)); [cbn [snd]; symmetry; apply set_cell_spec|reflexivity].
    + intros H. apply length_zero_iff_nil. cbn [rows]. rewrite length_overwrite, (U H). reflexivity.
Qed.

Lemma steps_inv ch l : forall ix used t st, inv ix used t st -> fits ix used t l = true ->
  exists st' ix' used', steps ch st l = Ok st' /\ inv ix' used' (fold_left means l t) st'.
Proof.
  induction l as [|s r IH]; intros ix used t st I G; cbn [steps fold_left].
  - exists st, ix, used. split; [reflexivity|exact I].
  - destruct (step_inv ch ix used t st s r I G) as (st1 & E & I1 & G1). rewrite E. cbn [rbind]. exact (IH _ _ _ _ I1 G1).
Qed.
Theorem C97_main ch l : fits None false [] l = true ->
  exists st, steps ch empty l = Ok st /\ forall cd lim, answers (query st cd lim) (filter (meets cd) (table l)) lim.
Proof.
  intros G. destruct (steps_inv ch l None false [] empty) as (st & ix & used & E & I); [|exact G|].
  { split; [reflexivity|]. split; [reflexivity|exact Logic.I]. }
  exists st. split; [exact E|]. intros cd lim. rewrite (filter_ext (meets cd) (accepts cd) (meets_ok cd)). destruct (scan_spec ix used _ st cd lim I) as (r & P & L).
  assert (F : filter (accepts cd) (table l) = map snd (filter (fun p => accepts cd (snd p)) (live st))).
  { unfold table. destruct I as (<- & _). apply filter_map. }
  exists (map snd r). unfold query. rewrite <- map_app, F. split; [apply Permutation_map; exact P|].
  rewrite !map_length, L. reflexivity.
Qed.

(** ** Refutations *)
Lemma chunk_cell_late xs col i : length xs <= i -> i < VCAP -> chunk_cell xs col i = Ok 0%Z.
Proof.
  intros A B. unfold chunk_cell. rewrite (proj2 (nth_error_None xs i) A). destruct (Nat.ltb_spec i VCAP); [reflexivity|lia].
Qed.
Lemma index_new_late ys col start : forall n id l, sorted l -> length ys <= start -> id + n + start <= VCAP ->
  exists l', index_new ys col start n id l = Ok l' /\ sorted l' /\ Permutation l' (map (fun i => (0%Z, i + start)) (seq id n) ++ l).
Proof.
  induction n as [|n IH]; intros id l SS A B; cbn [index_new].
  - exists l. split; [reflexivity|]. split; [exact SS|reflexivity].
  - rewrite chunk_cell_late by lia. cbn [rbind]. destruct (IH (S id) (put 0%Z (id + start) l)) as (l' & E & S' & P); [apply put_sorted; exact SS|exact A|lia|].
    exists l'. split; [exact E|]. split; [exact S'|]. rewrite P, put_perm. cbn [seq map app]. symmetry. apply Permutation_middle.
Qed.
Lemma perm_filter {A} (p : A -> bool) l m : Permutation l m -> Permutation (filter p l) (filter p m).
Proof.
  intros P. induction P; cbn [filter]; [constructor| | |etransitivity; eassumption].
  - destruct (p x); [constructor; assumption|assumption].
  - destruct (p x), (p y); try reflexivity. constructor.
Qed.
Lemma VCAP_1024 : VCAP = 1024. Proof. reflexivity. Qed.

Lemma second_insert ch col xs ys v : v <> 0%Z -> length ys <= length xs -> length xs + length ys <= 1024 ->
  exists st, steps ch empty [Create col; Insert xs; Insert ys] = Ok st /\
  answers (query st (Some (col, CEq, v)) None) (filter (meets (Some (col, CEq, v))) xs) None.
Proof.
  intros V L C. rewrite <- VCAP_1024 in C. cbn [steps step rbind create]. unfold insert at 1. cbn [idx create rows empty icol ents length app].
  destruct (index_new_spec xs col (length xs) 0 [] [] eq_refl) as (l & E & SS & P); [constructor|constructor|].
  rewrite E. cbn [rbind]. unfold insert. cbn [idx rows icol ents]. rewrite map_length.
  destruct (index_new_late ys col (length xs) (length ys) 0 l SS L) as (l' & E' & S' & P'); [lia|].
  rewrite E'. cbn [rbind]. eexists. split; [reflexivity|]. rewrite (filter_ext _ (accepts _) (meets_ok (Some (col, CEq, v)))).
  unfold query, scan. cbn [idx icol ents]. rewrite Nat.eqb_refl. unfold scan_index. cbn [cut].
  set (st := {| rows := _; idx := _ |}).
  assert (Q : Permutation (search CEq v l') (map (key col) (filter (fun p => accepts (Some (col, CEq, v)) (snd p)) (combine (seq 0 (length xs)) xs)))).
  { rewrite (search_spec CEq v l' S'). cbn [holds]. rewrite (perm_filter _ _ _ P'), filter_app.
    rewrite (filter_none _ (map _ (seq 0 (length ys)))).
    2:{ intros x X. apply in_map_iff in X as (i & <- & _). cbn [fst]. apply Z.eqb_neq. congruence. }
    cbn [app]. rewrite (perm_filter _ _ _ P), filter_map. reflexivity. }
  assert (M : forall p, In p (filter (fun p => accepts (Some (col, CEq, v)) (snd p)) (combine (seq 0 (length xs)) xs)) -> In p (live st)).
  { intros p X. apply filter_In in X as (X & _). rewrite live_live. unfold st. cbn [rows]. rewrite live_app, live_new. apply in_or_app. left. exact X. }
  destruct (fetch_perm st col _ _ M Q) as (G & _). exists []. rewrite app_nil_r.
  assert (F : filter (accepts (Some (col, CEq, v))) xs = map snd (filter (fun p => accepts (Some (col, CEq, v)) (snd p)) (combine (seq 0 (length xs)) xs))).
  { rewrite <- (filter_map snd). f_equal. clear. generalize 0. induction xs as [|y xs IH]; intros k; [reflexivity|]. cbn [length seq combine map snd]. rewrite <- IH. reflexivity. }
  assert (H : Permutation (map snd (flat_map (fetch st) (search CEq v l'))) (filter (accepts (Some (col, CEq, v))) xs)).
  { rewrite F. apply Permutation_map. exact G. }
  split; [exact H|]. exact (Permutation_length H).
Qed.
Lemma second_insert_late ch col xs ys : 1024 <= length xs -> ys <> [] -> length ys <= length xs ->
  steps ch empty [Create col; Insert xs; Insert ys] = Err UB.
Proof.
  intros C Y L. rewrite <- VCAP_1024 in C. cbn [steps step rbind create]. unfold insert at 1. cbn [idx create rows empty icol ents length app].
  destruct (index_new_spec xs col (length xs) 0 [] [] eq_refl) as (l & E & SS & P); [constructor|constructor|].
  rewrite E. cbn [rbind]. unfold insert. cbn [idx rows icol ents]. rewrite map_length.
  destruct ys as [|y ys]; [contradiction|]. cbn [length index_new plus]. unfold chunk_cell at 1.
  rewrite (proj2 (nth_error_None (y :: ys) (length xs)) L). destruct (Nat.ltb_spec (length xs) VCAP); [lia|]. reflexivity.
Qed.
Lemma created_later ch col xs c v lim :
  exists st, steps ch empty [Insert xs; Create col] = Ok st /\ query st (Some (col, c, v)) lim = [].
Proof.
  eexists. split; [reflexivity|]. unfold query, scan. cbn [create idx icol ents]. rewrite Nat.eqb_refl. unfold scan_index.
  destruct c, lim as [[|n]|]; reflexivity.
Qed.
Lemma created_later_delete ch col xs : xs <> [] -> steps ch empty [Insert xs; Create col; Delete None] = Err UB.
Proof.
  destruct xs as [|x xs]; [contradiction|]. intros _. cbn [steps step rbind insert empty idx rows app map]. unfold delete. cbn [create idx icol ents].
  unfold scan, scan_full. cbn [cut]. rewrite live_live. cbn [rows create live_from filter accepts map index_gone]. reflexivity.
Qed.
Lemma delete_equal ch : exists b st, steps ch empty [Create 0; Insert [[5; 1]; [5; 2]]%Z; Delete (Some (1, CEq, b))] = Ok st /\
  query st (Some (0, CEq, 5%Z)) None = [[5%Z; b]] /\ ~ In [5%Z; b] (table [Create 0; Insert [[5; 1]; [5; 2]]%Z; Delete (Some (1, CEq, b))]).
Proof.
  set (l := [(5%Z, 0); (5%Z, 1)]).
  assert (E0 : forall b, steps ch empty [Create 0; Insert [[5; 1]; [5; 2]]%Z; Delete (Some (1, CEq, b))] =
    delete ch {| rows := [([5; 1]%Z, true); ([5; 2]%Z, true)]; idx := Some {| icol := 0; ents := l |} |} (Some (1, CEq, b))).
  { intros b. cbn [steps step rbind create]. change (insert _ _) with (Ok {| rows := [([5; 1]%Z, true); ([5; 2]%Z, true)]; idx := Some {| icol := 0; ents := l |} |}).
    cbn [rbind]. destruct (delete _ _ _); reflexivity. }
  assert (D : forall p, ch 5%Z l mod 2 = p -> drop ch 5%Z l = Ok (firstn p l ++ skipn (S p) l)).
  { intros p <-. reflexivity. }
  pose proof (Nat.mod_upper_bound (ch 5%Z l) 2) as B. destruct (ch 5%Z l mod 2) as [|[|?]] eqn:M; [| |lia].
  - exists 2%Z. eexists. rewrite E0. split; [|split].
    + unfold delete. cbn [idx icol ents]. change (map (fun p => cell (snd p) 0) (scan _ _ _)) with [5%Z]. cbn [index_gone]. rewrite (D 0 eq_refl). cbn [rbind]. reflexivity.
    + reflexivity.
    + intros [H|[]]. discriminate.
  - exists 1%Z. eexists. rewrite E0. split; [|split].
    + unfold delete. cbn [idx icol ents]. change (map (fun p => cell (snd p) 0) (scan _ _ _)) with [5%Z]. cbn [index_gone]. rewrite (D 1 eq_refl). cbn [rbind]. reflexivity.
    + reflexivity.
    + intros [H|[]]. discriminate.
Qed.
Lemma update_moves ch : exists st, steps ch empty [Create 0; Insert [[1]; [2]; [3]]%Z; Update (Some (0, CEq, 3%Z)) 0 7%Z] = Ok st /\
  query st (Some (0, CEq, 7%Z)) None = [[1%Z]] /\ query st None None = table [Create 0; Insert [[1]; [2]; [3]]%Z; Update (Some (0, CEq, 3%Z)) 0 7%Z] /\ In [7%Z] (query st None None).
Proof.
  set (l := [(1%Z, 0); (2%Z, 1); (3%Z, 2)]).
  assert (D : drop ch 3%Z l = Ok [(1%Z, 0); (2%Z, 1)]).
  { unfold drop. change (ub 3%Z l - lb 3%Z l) with 1. cbn [Nat.eqb]. rewrite Nat.mod_1_r. reflexivity. }
  eexists. split; [|split; [|split]].
  - cbn [steps step rbind create]. change (insert _ _) with (Ok {| rows := [([1]%Z, true); ([2]%Z, true); ([3]%Z, true)]; idx := Some {| icol := 0; ents := l |} |}).
    cbn [rbind]. unfold update. cbn [idx icol ents]. change (map snd (scan _ _ _)) with [[3%Z]]. cbn [index_moved]. change (cell [3%Z] 0) with 3%Z. rewrite D. cbn [rbind]. reflexivity.
  - reflexivity.
  - reflexivity.
  - right. right. left. reflexivity.
Qed.
