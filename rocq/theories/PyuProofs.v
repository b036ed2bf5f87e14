From Coq Require Import Permutation.
From Verif Require Import Bytes Outcome ByteOrd PyuModel PyuSpec.

Section P.
Context {V : Type} (put : option V -> V -> option V) (sum : option V -> V -> V).
Context (order : list (list byte * field V) -> list (list byte * field V)) (fair : forall l, Permutation l (order l)).
Notation run := (run put sum).

Lemma same k : beqb k k = true.
Proof. now apply beqb_eq. Qed.
Lemma shuffled (l : list (list byte * V)) make : exists l', Permutation l l' /\
  each make (order (map (fun p => (fst p, One (snd p))) l)) = Ok (map (fun p => make (fst p) (snd p)) l').
Proof.
  destruct (Permutation_map_inv (fun p : list byte * V => (fst p, One (snd p))) l (Permutation_sym (fair _))) as (l' & E & P).
  exists l'. split; [exact P|]. rewrite E. clear. induction l' as [|[k v] l IH]; [reflexivity|].
  cbn [map each fst snd]. rewrite IH. reflexivity.
Qed.

(** one pass of updates of distinct fields *)
Lemma pass (step : option V -> V -> option V) make :
  (forall d k v, run d (make k v) = assign d k (step (d k) v)) ->
  forall l, NoDup (map fst l) -> forall d k,
  fold_left run (map (fun p => make (fst p) (snd p)) l) d k =
  match find (fun p => beqb (fst p) k) l with Some (_, v) => step (d k) v | None => d k end.
Proof.
  intros R. induction l as [|[k' v'] l IH]; intros N d k; [reflexivity|].
  cbn [map fst snd fold_left]. inversion N as [|? ? N1 N2]; subst. rewrite (IH N2), R. unfold assign. cbn [find fst].
  destruct (beqb k' k) eqn:E; [|reflexivity]. apply beqb_eq in E. subst k'.
  destruct (find (fun p => beqb (fst p) k) l) as [[k2 v2]|] eqn:F; [|reflexivity].
  apply find_some in F. destruct F as [F1 F2]. cbn [fst] in F2. apply beqb_eq in F2. subst k2.
  destruct N1. apply in_map_iff. now exists (k, v2).
Qed.
Lemma find_permuted (l l' : list (list byte * V)) k : Permutation l l' -> NoDup (map fst l) ->
  find (fun p => beqb (fst p) k) l' = find (fun p => beqb (fst p) k) l.
Proof.
  intros P N. assert (N' : NoDup (map fst l')) by exact (Permutation_NoDup (Permutation_map fst P) N).
  assert (U : forall m (x : list byte * V), NoDup (map fst m) -> In x m -> fst x = k -> find (fun p => beqb (fst p) k) m = Some x).
  { induction m as [|y m IH]; intros x M I E; [destruct I|]. cbn [find map] in *. inversion M as [|? ? M1 M2]; subst.
    destruct I as [->|I]; [now rewrite same|]. destruct (beqb (fst y) (fst x)) eqn:B; [|now apply IH].
    apply beqb_eq in B. destruct M1. rewrite B. now apply in_map. }
  destruct (find (fun p => beqb (fst p) k) l) as [x|] eqn:F.
  - apply find_some in F. destruct F as [F1 F2]. apply beqb_eq in F2. apply U; [exact N'|now apply (Permutation_in _ P)|exact F2].
  - destruct (find (fun p => beqb (fst p) k) l') as [x|] eqn:F'; [|reflexivity].
    apply find_some in F'. destruct F' as [F1 F2]. apply (Permutation_in _ (Permutation_sym P)) in F1.
    pose proof (find_none _ _ F _ F1) as C. cbn beta in C. congruence.
Qed.
Lemma lookup_in {A} k (x : A) l : NoDup (map fst l) -> In (k, x) l -> lookup k l = Some x.
Proof.
  induction l as [|[k' y] l IH]; intros N I; [destruct I|]. cbn [map fst] in N. inversion N as [|? ? N1 N2]; subst. cbn [lookup].
  destruct I as [E|I]; [injection E as -> ->; now rewrite same|]. destruct (beqb k' k) eqn:B; [|now apply IH].
  apply beqb_eq in B. subst. destruct N1. exact (in_map fst _ _ I).
Qed.
Lemma lookup_out {A} k (l : list (list byte * A)) : ~ In k (map fst l) -> lookup k l = None.
Proof.
  induction l as [|[k' y] l IH]; intros N; [reflexivity|]. cbn [lookup map fst] in *. destruct (beqb k' k) eqn:B.
  - apply beqb_eq in B. subst. destruct N. now left.
  - apply IH. intros I. apply N. now right.
Qed.
Lemma operator_says fields op l make : NoDup (map fst fields) -> says fields op l -> exists l', Permutation l l' /\
  operator order op make fields = Ok (map (fun p => make (fst p) (snd p)) l').
Proof.
  intros N [I|[-> O]]; unfold operator.
  - rewrite (lookup_in _ _ _ N I). apply shuffled.
  - rewrite (lookup_out _ _ O). now exists [].
Qed.
Theorem updated_right fields s i d : NoDup (map fst fields) -> says fields (str "$set") s -> says fields (str "$inc") i ->
  NoDup (map fst s) -> NoDup (map fst i) ->
  exists d', updated put sum order fields d = Ok d' /\ forall k, d' k = after put sum s i d k.
Proof.
  intros N Ss Si Ns Ni. destruct (operator_says fields _ s (@Set_ V) N Ss) as (s' & Ps & Es).
  destruct (operator_says fields _ i (@Add_ V) N Si) as (i' & Pi & Ei).
  unfold updated, updates. rewrite Es. cbn [rbind]. rewrite Ei. cbn [rbind].
  eexists. split; [reflexivity|]. intros k. rewrite fold_left_app.
  rewrite (pass (fun x v => put x (sum x v)) (@Add_ V)); [|reflexivity|exact (Permutation_NoDup (Permutation_map fst Pi) Ni)].
  rewrite (pass put (@Set_ V)); [|reflexivity|exact (Permutation_NoDup (Permutation_map fst Ps) Ns)].
  rewrite (find_permuted i i' k Pi Ni), (find_permuted s s' k Ps Ns). reflexivity.
Qed.
(** Operators that are not known *)
Theorem unknown fields d : lookup (str "$set") fields = None -> lookup (str "$inc") fields = None ->
  updated put sum order fields d = Ok d.
Proof. intros A B. unfold updated, updates, operator. rewrite A, B. reflexivity. Qed.
(** Values of several *)
Theorem nested k x d : (forall v, x <> One v) -> updated put sum order [(str "$set", Several [(k, x)])] d = Err UB.
Proof.
  intros N. unfold updated, updates, operator. cbn [lookup]. change (beqb (str "$set") (str "$set")) with true. cbn iota.
  pose proof (fair [(k, x)]) as P. apply Permutation_length_1_inv in P. rewrite P.
  destruct x; [now destruct (N v)| |]; reflexivity.
Qed.
End P.
