(** Proofs about joins of documents. *)
From Verif Require Import Bytes Outcome ByteOrd IndexModel QueryModel JoinModel JoinSpec.
From Coq Require Import Sorting.Permutation.

(** ** Merging *)
Definition merged (f1 f2 : jdoc) : jdoc :=
  f2 ++ filter (fun kv => match lookup beqb (fst kv) f2 with None => true | Some _ => false end) f1.

Lemma beqb_refl k : beqb k k = true. Proof. apply beqb_eq. reflexivity. Qed.

Lemma mergeable_cons l k v r : mergeable l ((k, v) :: r) =
  (match value l k, v with Some _, Obj _ => false | _, _ => true end) && mergeable l r.
Proof. reflexivity. Qed.

Lemma merge_ok d1 d2 : mergeable d1 d2 = true -> merge d1 d2 = Ok (merged d1 d2).
Proof.
  intros M. unfold merge, merged. cbn [merge_node].
  assert (G : forall l, mergeable d1 l = true ->
    (fix go l := match l with
                 | [] => Ok []
                 | (k, v) :: r =>
                   do v' <- match lookup beqb k d1 with None => Ok v | Some w => merge_node w v end;
                   do r' <- go r; Ok ((k, v') :: r')
                 end) l = Ok l).
  { induction l as [|[k v] l IH]; intros H; [reflexivity|]. rewrite mergeable_cons in H. apply andb_true_iff in H. destruct H as [H1 H2].
    unfold value in H1. destruct (lookup beqb k d1) as [w|].
    - destruct v as [v|]; [|discriminate]. cbn [merge_node rbind]. rewrite (IH H2). reflexivity.
    - cbn [rbind]. rewrite (IH H2). reflexivity. }
  rewrite (G d2 M). reflexivity.
Qed.

Lemma lookup_app {B} k (a b : list (list byte * B)) :
  lookup beqb k (a ++ b) = match lookup beqb k a with Some v => Some v | None => lookup beqb k b end.
Proof. induction a as [|[k' v] a IH]; cbn; [reflexivity|]. destruct (beqb k k'); auto. Qed.
Lemma lookup_filter {B} k (g : list byte -> bool) (a : list (list byte * B)) :
  lookup beqb k (filter (fun kv => g (fst kv)) a) = if g k then lookup beqb k a else None.
Proof.
  induction a as [|[k' v] a IH]; cbn; [destruct (g k); reflexivity|].
  destruct (beqb k k') eqn:E.
  - apply beqb_eq in E. subst k'. destruct (g k); cbn; [rewrite beqb_refl; reflexivity|exact IH].
  - destruct (g k') eqn:G; cbn; [rewrite E|]; exact IH.
Qed.
Lemma merged_value d1 d2 k : value (merged d1 d2) k = match value d2 k with Some v => Some v | None => value d1 k end.
Proof.
  unfold value, merged. rewrite lookup_app. destruct (lookup beqb k d2) eqn:E; [reflexivity|].
  rewrite (lookup_filter k (fun k => match lookup beqb k d2 with None => true | Some _ => false end)). rewrite E. reflexivity.
Qed.

Lemma value_nulls d k : value (nulls d) k = match value d k with Some _ => Some (Leaf DNull) | None => None end.
Proof. unfold value, nulls. induction d as [|[k' v] d IH]; cbn; [reflexivity|]. destruct (beqb k k'); auto. Qed.

Lemma lookup_In {B} k v (a : list (list byte * B)) : lookup beqb k a = Some v -> In (k, v) a.
Proof.
  induction a as [|[k' w] a IH]; cbn; [discriminate|]. destruct (beqb k k') eqn:E; [|auto].
  apply beqb_eq in E. intros [= ->]. left. congruence.
Qed.
Lemma no_shared_value l r k : no_shared l r = true -> value r k <> None -> value l k = None.
Proof.
  intros H N. destruct (value r k) as [v|] eqn:E; [|contradiction]. apply lookup_In in E.
  unfold no_shared in H. rewrite forallb_forall in H. specialize (H _ E). cbn in H. destruct (value l k); [discriminate|reflexivity].
Qed.
Lemma mergeable_nulls_r l r : mergeable l (nulls r) = true.
Proof. unfold mergeable, nulls. rewrite forallb_forall. intros [k v] I. apply in_map_iff in I. destruct I as (kv & [= <- <-] & _). cbn. destruct (value l (fst kv)); reflexivity. Qed.
Lemma mergeable_nulls_l l r : mergeable (nulls l) r = mergeable l r.
Proof.
  unfold mergeable. induction r as [|[k v] r IH]; cbn; [reflexivity|]. rewrite IH, value_nulls. destruct (value l k); reflexivity.
Qed.

(** ** Rows and their documents *)
Definition makes (out : list jdoc) (rs : list jrow) : Prop :=
  exists rs', Permutation rs' rs /\ Forall2 made_of out rs'.
Lemma makes_nil : makes [] [].
Proof. exists []. split; constructor. Qed.
Lemma makes_app o1 o2 r1 r2 : makes o1 r1 -> makes o2 r2 -> makes (o1 ++ o2) (r1 ++ r2).
Proof. intros (a & P & F) (b & Q & G). exists (a ++ b). split; [apply Permutation_app; assumption|apply Forall2_app; assumption]. Qed.
Lemma makes_perm o r r' : Permutation r r' -> makes o r -> makes o r'.
Proof. intros P (a & Q & F). exists a. split; [transitivity r; assumption|exact F]. Qed.
Lemma makes_one d row : made_of d row -> makes [d] [row].
Proof. intros H. exists [row]. split; [reflexivity|]. constructor; [exact H|constructor]. Qed.

Section Join.
  Variable p : jdoc -> jdoc -> res bool.
  Variable f : jdoc -> jdoc -> bool.

  Definition answers (left right : list jdoc) : Prop := forall l r, In l left -> In r right -> p l r = Ok (f l r).
  Definition fit (left right : list jdoc) : Prop := forall l r, In l left -> In r right -> mergeable l r = true.

  Lemma answers_tail l left right : answers (l :: left) right -> answers left right.
  Proof. intros H x r I. apply H. right. exact I. Qed.
  Lemma fit_tail l left right : fit (l :: left) right -> fit left right.
  Proof. intros H x r I. apply H. right. exact I. Qed.
  Lemma answers_tail_r left r right : answers left (r :: right) -> answers left right.
  Proof. intros H x y I J. apply H; [exact I|right; exact J]. Qed.
  Lemma fit_tail_r left r right : fit left (r :: right) -> fit left right.
  Proof. intros H x y I J. apply H; [exact I|right; exact J]. Qed.

  Lemma made_pair l r : made_of (merged l r) (Some l, Some r).
  Proof. intros k. apply merged_value. Qed.

  Lemma probe_ok l right : answers [l] right -> fit [l] right ->
    exists ms, probe p l right = Ok (ms, map (f l) right) /\ makes ms (map (fun r => (Some l, Some r)) (filter (f l) right)).
  Proof.
    induction right as [|r right IH]; intros A F; cbn [probe].
    - exists []. split; [reflexivity|apply makes_nil].
    - destruct (IH (answers_tail_r _ _ _ A) (fit_tail_r _ _ _ F)) as (ms & E & M).
      rewrite (A l r) by (left; reflexivity). cbn [rbind]. rewrite E. cbn [map filter]. destruct (f l r).
      + rewrite merge_ok by (apply F; left; reflexivity). cbn [rbind]. eexists. split; [reflexivity|].
        apply (makes_app [_] ms [_]); [|exact M]. apply makes_one, made_pair.
      + cbn [rbind]. eexists. split; [reflexivity|]. exact M.
  Qed.
  Lemma probe_right_ok r left : answers left [r] -> fit left [r] ->
    exists ms, probe_right p r left = Ok (ms, existsb (fun l => f l r) left) /\
      makes ms (map (fun l => (Some l, Some r)) (filter (fun l => f l r) left)).
  Proof.
    induction left as [|l left IH]; intros A F; cbn [probe_right].
    - exists []. split; [reflexivity|apply makes_nil].
    - destruct (IH (answers_tail _ _ _ A) (fit_tail _ _ _ F)) as (ms & E & M).
      rewrite (A l r) by (left; reflexivity). cbn [rbind]. rewrite E. cbn [existsb filter]. destruct (f l r).
      + rewrite merge_ok by (apply F; left; reflexivity). cbn [rbind]. eexists. split; [reflexivity|].
        apply (makes_app [_] ms [_]); [|exact M]. apply makes_one, made_pair.
      + cbn [rbind]. eexists. split; [reflexivity|]. exact M.
  Qed.

  Lemma pairs_cons l left right : pairs f (l :: left) right =
    map (fun r => (Some l, Some r)) (filter (f l) right) ++ pairs f left right.
  Proof.
    unfold pairs. cbn [list_prod]. rewrite filter_app, map_app. f_equal.
    induction right as [|r right IH]; cbn; [reflexivity|]. destruct (f l r); cbn; congruence.
  Qed.
  Lemma pairs_nil_r left : pairs f left [] = [].
  Proof. induction left as [|l left IH]; [reflexivity|]. rewrite pairs_cons, IH. reflexivity. Qed.
  Lemma pairs_cons_r left r right : Permutation (pairs f left (r :: right))
    (map (fun l => (Some l, Some r)) (filter (fun l => f l r) left) ++ pairs f left right).
  Proof.
    induction left as [|l left IH]; [reflexivity|]. rewrite !pairs_cons. cbn [filter].
    rewrite IH. destruct (f l r); cbn [map app].
    - constructor. rewrite !app_assoc. apply Permutation_app_tail, Permutation_app_comm.
    - rewrite !app_assoc. apply Permutation_app_tail, Permutation_app_comm.
  Qed.

  Lemma inner_ok left right : answers left right -> fit left right ->
    exists out, inner_join p left right = Ok out /\ makes out (pairs f left right).
  Proof.
    induction left as [|l left IH]; intros A F; cbn [inner_join].
    - exists []. split; [reflexivity|apply makes_nil].
    - destruct (probe_ok l right) as (ms & E & M).
      { intros x r [<-|[]]. apply A. left. reflexivity. } { intros x r [<-|[]]. apply F. left. reflexivity. }
      destruct (IH (answers_tail _ _ _ A) (fit_tail _ _ _ F)) as (out & E' & M').
      rewrite E. cbn [rbind]. rewrite E'. cbn [rbind]. eexists. split; [reflexivity|]. rewrite pairs_cons. apply makes_app; assumption.
  Qed.

  Lemma existsb_id {A} (g : A -> bool) l : existsb (fun b => b) (map g l) = existsb g l.
  Proof. induction l; cbn; congruence. Qed.

  Lemma own_left pad l right : mergeable l pad = true ->
    (existsb (f l) right = false -> forall k, content (merged l pad) k = content l k) ->
    exists own, (if existsb (f l) right then Ok [] else do x <- merge l pad; Ok [x]) = Ok own /\
      makes own (if existsb (f l) right then [] else [(Some l, None)]).
  Proof.
    intros M K. destruct (existsb (f l) right).
    - exists []. split; [reflexivity|apply makes_nil].
    - rewrite merge_ok by exact M. eexists. split; [reflexivity|]. apply makes_one. cbn. apply K. reflexivity.
  Qed.
  Lemma lonely_left_cons l left right : lonely_left f (l :: left) right =
    (if existsb (f l) right then [] else [(Some l, None)]) ++ lonely_left f left right.
  Proof. unfold lonely_left. cbn [filter]. destruct (existsb (f l) right); reflexivity. Qed.

  Lemma perm_shuffle {A} (a b c d : list A) : Permutation (a ++ b ++ (c ++ d)) ((a ++ c) ++ (b ++ d)).
  Proof. rewrite <- app_assoc. apply Permutation_app_head. rewrite !app_assoc. apply Permutation_app_tail, Permutation_app_comm. Qed.

  Lemma left_loop_ok pad left right : answers left right -> fit left right ->
    (forall l, In l left -> mergeable l pad = true /\ forall k, content (merged l pad) k = content l k) ->
    exists out, left_loop p pad left right = Ok out /\ makes out (pairs f left right ++ lonely_left f left right).
  Proof.
    induction left as [|l left IH]; intros A F P; cbn [left_loop].
    - exists []. split; [reflexivity|apply makes_nil].
    - destruct (probe_ok l right) as (ms & E & M).
      { intros x r [<-|[]]. apply A. left. reflexivity. } { intros x r [<-|[]]. apply F. left. reflexivity. }
      destruct (IH (answers_tail _ _ _ A) (fit_tail _ _ _ F)) as (out & E' & M'); [intros x I; apply P; right; exact I|].
      destruct (P l) as [P1 P2]; [left; reflexivity|].
      destruct (own_left pad l right P1 (fun _ => P2)) as (own & E'' & M'').
      rewrite E. cbn [rbind]. rewrite existsb_id, E''. cbn [rbind]. rewrite E'. cbn [rbind]. eexists. split; [reflexivity|].
      rewrite pairs_cons, lonely_left_cons. eapply makes_perm; [apply perm_shuffle|].
      apply makes_app; [exact M|]. apply makes_app; [exact M''|exact M'].
  Qed.

  Lemma content_pad_right l r : no_shared l r = true -> forall k, content (merged l (nulls r)) k = content l k.
  Proof.
    intros N k. unfold content. rewrite merged_value, value_nulls. destruct (value r k) as [v|] eqn:E; [|reflexivity].
    rewrite (no_shared_value l r k N) by congruence. reflexivity.
  Qed.
  Lemma content_pad_left l r : forall k, content (merged (nulls l) r) k = content r k.
  Proof.
    intros k. unfold content. rewrite merged_value, value_nulls. destruct (value r k); [reflexivity|]. destruct (value l k); reflexivity.
  Qed.
  Lemma content_nil l k : content (merged l []) k = content l k.
  Proof. unfold content. rewrite merged_value. reflexivity. Qed.

  Lemma own_right pad left r : mergeable pad r = true -> (forall k, content (merged pad r) k = content r k) ->
    forall v, exists own, (if v : bool then Ok [] else do x <- merge pad r; Ok [x]) = Ok own /\
      (v = existsb (fun l => f l r) left -> makes own (lonely_right f left [r])).
  Proof.
    intros M K v. unfold lonely_right. cbn [filter]. destruct v.
    - exists []. split; [reflexivity|]. intros <-. apply makes_nil.
    - rewrite merge_ok by exact M. eexists. split; [reflexivity|]. intros <-. cbn. apply makes_one. exact K.
  Qed.
  Lemma lonely_right_cons left r right : lonely_right f left (r :: right) = lonely_right f left [r] ++ lonely_right f left right.
  Proof. unfold lonely_right. cbn [filter]. destruct (existsb (fun l => f l r) left); reflexivity. Qed.

  Lemma right_loop_ok pad left right : answers left right -> fit left right ->
    (forall r, In r right -> mergeable pad r = true /\ forall k, content (merged pad r) k = content r k) ->
    exists out, right_loop p pad left right = Ok out /\ makes out (pairs f left right ++ lonely_right f left right).
  Proof.
    induction right as [|r right IH]; intros A F P; cbn [right_loop].
    - exists []. split; [reflexivity|]. rewrite pairs_nil_r. apply makes_nil.
    - destruct (probe_right_ok r left) as (ms & E & M).
      { intros l x I [<-|[]]. apply A; [exact I|left; reflexivity]. } { intros l x I [<-|[]]. apply F; [exact I|left; reflexivity]. }
      destruct (IH (answers_tail_r _ _ _ A) (fit_tail_r _ _ _ F)) as (out & E' & M'); [intros x I; apply P; right; exact I|].
      destruct (P r) as [P1 P2]; [left; reflexivity|].
      destruct (own_right pad left r P1 P2 (existsb (fun l => f l r) left)) as (own & E'' & M'').
      rewrite E. cbn [rbind]. rewrite E''. cbn [rbind]. rewrite E'. cbn [rbind]. eexists. split; [reflexivity|].
      rewrite lonely_right_cons. eapply makes_perm; [|apply makes_app; [exact M|apply makes_app; [apply M''; reflexivity|exact M']]].
      rewrite pairs_cons_r. apply perm_shuffle.
  Qed.

  Lemma mark_or (g h : jdoc -> bool) right : mark (map g right) (map h right) = map (fun r => g r || h r) right.
  Proof. unfold mark. induction right as [|r right IH]; cbn; [reflexivity|]. f_equal. exact IH. Qed.

  Lemma full_left_ok pad left right : answers left right -> fit left right ->
    (forall l, In l left -> mergeable l pad = true /\ forall k, content (merged l pad) k = content l k) -> forall g,
    exists out, full_left p pad left right (map g right) = Ok (out, map (fun r => g r || existsb (fun l => f l r) left) right) /\
      makes out (pairs f left right ++ lonely_left f left right).
  Proof.
    induction left as [|l left IH]; intros A F P g; cbn [full_left].
    - exists []. split; [|apply makes_nil]. do 2 f_equal. apply map_ext. intros r. cbn. rewrite orb_false_r. reflexivity.
    - destruct (probe_ok l right) as (ms & E & M).
      { intros x r [<-|[]]. apply A. left. reflexivity. } { intros x r [<-|[]]. apply F. left. reflexivity. }
      destruct (P l) as [P1 P2]; [left; reflexivity|].
      destruct (own_left pad l right P1 (fun _ => P2)) as (own & E'' & M'').
      rewrite E. cbn [rbind]. rewrite existsb_id, E''. cbn [rbind]. rewrite mark_or.
      destruct (IH (answers_tail _ _ _ A) (fit_tail _ _ _ F) (fun x I => P x (or_intror I)) (fun r => g r || f l r)) as (out & E' & M').
      rewrite E'. cbn [rbind]. eexists. split.
      + do 2 f_equal. apply map_ext. intros r. cbn [existsb]. rewrite orb_assoc. reflexivity.
      + rewrite pairs_cons, lonely_left_cons. eapply makes_perm; [apply perm_shuffle|].
        apply makes_app; [exact M|]. apply makes_app; [exact M''|exact M'].
  Qed.
  Lemma full_right_ok pad left right : (forall r, In r right -> mergeable pad r = true /\ forall k, content (merged pad r) k = content r k) ->
    exists out, full_right pad right (map (fun r => existsb (fun l => f l r) left) right) = Ok out /\ makes out (lonely_right f left right).
  Proof.
    induction right as [|r right IH]; intros P; cbn [full_right map].
    - exists []. split; [reflexivity|apply makes_nil].
    - destruct (IH (fun x I => P x (or_intror I))) as (out & E & M).
      destruct (P r) as [P1 P2]; [left; reflexivity|].
      destruct (own_right pad left r P1 P2 (existsb (fun l => f l r) left)) as (own & E' & M').
      rewrite E'. cbn [rbind]. rewrite E. cbn [rbind]. eexists. split; [reflexivity|].
      rewrite lonely_right_cons. apply makes_app; [apply M'; reflexivity|exact M].
  Qed.
End Join.

Theorem join_ok t p f left right : joinable t left right = true ->
  (forall l r, In l left -> In r right -> p l r = Ok (f l r)) ->
  exists out, join t p left right = Ok out /\ makes out (rows t f left right).
Proof.
  unfold joinable. intros J A. apply andb_true_iff in J. destruct J as [J K].
  assert (F : fit left right).
  { intros l r I I'. rewrite forallb_forall in J. specialize (J l I). rewrite forallb_forall in J. apply J, I'. }
  assert (PR : forall r l, no_shared l r = true -> mergeable l (nulls r) = true /\ forall k, content (merged l (nulls r)) k = content l k).
  { intros r l N. split; [apply mergeable_nulls_r|apply content_pad_right, N]. }
  destruct t; cbn [join rows].
  - apply inner_ok; assumption.
  - unfold full_join. destruct left as [|l0 left0].
    + destruct (full_right_ok f [] [] right) as (out & E & M).
      { intros r _. split; [unfold mergeable; rewrite forallb_forall; intros [k v] _; reflexivity|]. apply (content_pad_left []). }
      cbn [full_pad_left full_left rbind]. cbn [existsb] in E. rewrite E. exists out. split; [reflexivity|]. exact M.
    + destruct right as [|r0 right0]; [discriminate|]. cbn [full_pad_left rbind nulls_of_first].
      apply andb_true_iff in K. destruct K as [K1 K2]. rewrite forallb_forall in K1, K2.
      set (left := l0 :: left0) in *. set (right := r0 :: right0) in *.
      destruct (full_left_ok p f (nulls r0) left right A F (fun l I => PR r0 l (K1 l I)) (fun _ => false)) as (out & E & M).
      rewrite E. cbn [rbind orb].
      destruct (full_right_ok f (nulls r0) left right) as (out' & E' & M').
      { intros r I. split; [rewrite mergeable_nulls_l; apply K2, I|apply content_pad_left]. }
      rewrite E'. cbn [rbind]. eexists. split; [reflexivity|]. rewrite app_assoc. apply makes_app; assumption.
  - apply left_loop_ok; [exact A|exact F|]. intros l I. destruct right as [|r0 right0]; cbn [nulls_of_first].
    + split; [reflexivity|apply content_nil].
    + rewrite forallb_forall in K. apply PR, K, I.
  - apply right_loop_ok; [exact A|exact F|]. intros r I. destruct left as [|l0 left0]; cbn [nulls_of_first].
    + split; [unfold mergeable; rewrite forallb_forall; intros [k v] _; reflexivity|]. apply (content_pad_left []).
    + split; [rewrite mergeable_nulls_l; apply F; [left; reflexivity|exact I]|apply content_pad_left].
  - apply inner_ok; [|exact F]. intros l r _ _. reflexivity.
Qed.
