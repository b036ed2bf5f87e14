(** Proofs about documents as graphs. *)
From Verif Require Import Bytes Outcome ByteOrd IndexModel GlobModel JsonPtrModel JsonPtrProofs QueryModel DocModel DocSpec.
From Verif Require JoinProofs TapeModel.
From Verif Require Import QueryProofs.
Local Open Scope nat_scope.

(** ** Paths *)
Lemma at_app h l p q : at_path h l (p ++ q) = match at_path h l p with Some m => at_path h m q | None => None end.
Proof. revert l. induction p as [|s p IH]; intros l; cbn; [reflexivity|]. destruct (child h l s); [apply IH|reflexivity]. Qed.
Lemma at_snoc h l p s m : at_path h l p = Some m -> at_path h l (p ++ [s]) = child h m s.
Proof. intros E. rewrite at_app, E. cbn. destruct (child h m s); reflexivity. Qed.
Lemma child_container h l s m : child h l s = Some m -> container h l.
Proof. unfold child, container. destruct (nth_error h l) as [[]|]; try discriminate; auto; destruct s; discriminate. Qed.
Lemma at_closed h l p m : closed h -> l < length h -> at_path h l p = Some m -> m < length h.
Proof.
  intros C. revert l. induction p as [|s p IH]; cbn; intros l L E; [congruence|].
  destruct (child h l s) eqn:Ch; [|discriminate]. eapply IH; [|exact E]. eapply C, Ch.
Qed.
Definition slot_dec : forall a b : slot, {a = b} + {a <> b}.
Proof. decide equality; [apply list_eq_dec, Ascii.ascii_dec|apply Nat.eq_dec]. Defined.
Lemma extends_dec (t p : list slot) : {exists r, p = t ++ r} + {~ exists r, p = t ++ r}.
Proof.
  revert p. induction t as [|s t IH]; intros p; [left; exists p; reflexivity|].
  destruct p as [|s' p]; [right; intros (r & E); discriminate|].
  destruct (slot_dec s s') as [->|N].
  - destruct (IH p) as [Y|Y]; [left; destruct Y as (r & ->); exists r; reflexivity|].
    right. intros (r & E). injection E as E. apply Y. exists r. exact E.
  - right. intros (r & E). injection E as E1 E2. congruence.
Qed.

(** ** One node changed *)
(** [h'] is [h] but for the node [c], maybe with more nodes. *)
Definition but (h h' : list node) (c : nat) : Prop := forall l, l < length h -> l <> c -> nth_error h' l = nth_error h l.

Lemma but_child h h' c l s : but h h' c -> l < length h -> l <> c -> child h' l s = child h l s.
Proof. intros B L N. unfold child. rewrite (B l L N). reflexivity. Qed.

(** Paths that do not use a changed slot of [c] stay. *)
Lemma frame h h' root cp c : closed h -> root < length h -> unshared h root -> at_path h root cp = Some c -> container h c -> but h h' c ->
  forall q p l, at_path h root p = Some l -> (forall q1 s q2, q = q1 ++ s :: q2 -> p ++ q1 = cp -> child h' c s = child h c s) ->
  at_path h' l q = at_path h l q.
Proof.
  intros C R U A K B. induction q as [|s q IH]; intros p l P H; [reflexivity|].
  assert (L : l < length h) by (eapply at_closed; eassumption). cbn.
  assert (E : child h' l s = child h l s).
  { destruct (Nat.eq_dec l c) as [->|N]; [|apply (but_child h h' c); assumption].
    apply (H [] s q eq_refl). rewrite app_nil_r. apply (U p cp c P A K). }
  rewrite E. destruct (child h l s) as [m|] eqn:Ch; [|reflexivity].
  apply (IH (p ++ [s]) m); [rewrite (at_snoc h root p s l P); exact Ch|].
  intros q1 s' q2 -> X. apply (H (s :: q1) s' q2 eq_refl). rewrite <- X, <- app_assoc. reflexivity.
Qed.
(** In particular everything that cannot reach [c]. *)
Lemma frame_away h h' c l q : closed h -> l < length h -> but h h' c -> (forall r, at_path h l r <> Some c) -> at_path h' l q = at_path h l q.
Proof.
  intros C. revert l. induction q as [|s q IH]; intros l L B N; [reflexivity|]. cbn.
  assert (Nl : l <> c) by (intros ->; apply (N []); reflexivity).
  rewrite (but_child h h' c l s B L Nl). destruct (child h l s) as [m|] eqn:Ch; [|reflexivity].
  apply IH; [eapply C, Ch|exact B|]. intros r E. apply (N (s :: r)). cbn. rewrite Ch. exact E.
Qed.

(** ** Putting a node in a slot *)
Record attached (h h' : list node) (c : nat) (s : slot) (n : nat) : Prop := {
  att_len : length h' = length h;
  att_but : but h h' c;
  att_in : child h' c s = Some n;
  att_other : forall s', s' <> s -> child h' c s' = child h c s';
  att_kind : forall l, match nth_error h l with
                       | Some (Obj _) => exists fs, nth_error h' l = Some (Obj fs)
                       | Some (Arr _) => exists ls, nth_error h' l = Some (Arr ls)
                       | x => nth_error h' l = x
                       end }.

Lemma upd_length {A} (l : list A) i x : length (upd l i x) = length l.
Proof. revert i. induction l as [|y l IH]; intros [|i]; cbn; congruence. Qed.
Lemma nth_upd {A} (l : list A) i j x : nth_error (upd l i x) j = if Nat.eqb i j then match nth_error l j with Some _ => Some x | None => None end else nth_error l j.
Proof.
  revert i j. induction l as [|y l IH]; intros [|i] [|j]; cbn; try reflexivity; try (destruct (Nat.eqb i j); reflexivity). apply IH.
Qed.
Lemma beqb_sym a b : beqb a b = beqb b a.
Proof.
  destruct (beqb a b) eqn:E; symmetry; [apply beqb_eq in E; subst; apply beqb_eq; reflexivity|].
  apply not_true_is_false. intros T. apply beqb_eq in T. subst. assert (X : beqb a a = true) by (apply beqb_eq; reflexivity). congruence.
Qed.
Lemma lookup_put fs k n k' : lookup beqb k' (obj_put fs k n) = if beqb k' k then Some n else lookup beqb k' fs.
Proof.
  unfold obj_put. destruct (lookup beqb k fs) as [m|] eqn:L.
  - assert (G : forall fs, lookup beqb k' (map (fun e : list byte * nat => if beqb (fst e) k then (fst e, n) else e) fs) =
      if beqb k' k then match lookup beqb k' fs with Some _ => Some n | None => None end else lookup beqb k' fs).
    { clear. induction fs as [|[a b] fs IH]; cbn; [destruct (beqb k' k); reflexivity|].
      destruct (beqb a k) eqn:E; cbn; rewrite IH.
      - apply beqb_eq in E. subst a. destruct (beqb k' k); reflexivity.
      - destruct (beqb k' a) eqn:E2; [|reflexivity]. apply beqb_eq in E2. subst a. rewrite E. reflexivity. }
    rewrite G. destruct (beqb k' k) eqn:E; [|reflexivity]. apply beqb_eq in E. subst. rewrite L. reflexivity.
  - rewrite JoinProofs.lookup_app. cbn. destruct (beqb k' k) eqn:E.
    + apply beqb_eq in E. subst. rewrite L. reflexivity.
    + destruct (lookup beqb k' fs); reflexivity.
Qed.
Lemma nth_put ls i n j : i <= length ls -> nth_error (arr_put ls i n) j = if Nat.eqb i j then Some n else nth_error ls j.
Proof.
  intros L. unfold arr_put. destruct (length ls <=? i) eqn:E.
  - apply Nat.leb_le in E. assert (i = length ls) by lia. subst i. destruct (Nat.eqb (length ls) j) eqn:E2.
    + apply Nat.eqb_eq in E2. subst j. rewrite nth_error_app2, Nat.sub_diag by lia. reflexivity.
    + apply Nat.eqb_neq in E2. destruct (Nat.lt_ge_cases j (length ls)).
      * rewrite nth_error_app1 by lia. reflexivity.
      * rewrite nth_error_app2 by lia. destruct (j - length ls) as [|x] eqn:Y; [lia|]. cbn. destruct x; cbn;
        symmetry; apply nth_error_None; lia.
  - apply Nat.leb_gt in E. rewrite nth_upd. destruct (Nat.eqb i j) eqn:E2; [|reflexivity]. apply Nat.eqb_eq in E2. subst.
    destruct (nth_error ls j) eqn:Y; [reflexivity|]. apply nth_error_None in Y. lia.
Qed.

Definition slot_fits (h : list node) (c : nat) (s : slot) : Prop :=
  match nth_error h c, s with Some (Arr ls), Index i => i <= length ls | _, _ => True end.
Lemma attach_spec h c s n h' : attach h c s n = Ok h' -> slot_fits h c s -> attached h h' c s n /\ container h c.
Proof.
  unfold attach, slot_fits. intros E F.
  destruct (nth_error h c) as [[fs|ls|v|]|] eqn:N; try discriminate; destruct s as [k|i]; try discriminate; injection E as <-.
  - split; [|unfold container; rewrite N; exact I].
    assert (Nc : nth_error (upd h c (Obj (obj_put fs k n))) c = Some (Obj (obj_put fs k n))) by (rewrite nth_upd, Nat.eqb_refl, N; reflexivity).
    constructor.
    + apply upd_length.
    + intros l _ D. rewrite nth_upd. apply Nat.eqb_neq in D. rewrite Nat.eqb_sym, D. reflexivity.
    + unfold child. rewrite Nc, lookup_put. replace (beqb k k) with true by (symmetry; apply beqb_eq; reflexivity). reflexivity.
    + intros s' D. unfold child. rewrite Nc, N. destruct s' as [k'|]; [|reflexivity]. rewrite lookup_put.
      destruct (beqb k' k) eqn:E; [|reflexivity]. apply beqb_eq in E. congruence.
    + intros l. rewrite nth_upd. destruct (Nat.eqb c l) eqn:E.
      * apply Nat.eqb_eq in E. subst l. rewrite N. eauto.
      * destruct (nth_error h l) as [[]|]; eauto.
  - split; [|unfold container; rewrite N; exact I].
    assert (Nc : nth_error (upd h c (Arr (arr_put ls i n))) c = Some (Arr (arr_put ls i n))) by (rewrite nth_upd, Nat.eqb_refl, N; reflexivity).
    constructor.
    + apply upd_length.
    + intros l _ D. rewrite nth_upd. apply Nat.eqb_neq in D. rewrite Nat.eqb_sym, D. reflexivity.
    + unfold child. rewrite Nc, nth_put, Nat.eqb_refl by exact F. reflexivity.
    + intros s' D. unfold child. rewrite Nc, N. destruct s' as [|j]; [reflexivity|]. rewrite nth_put by exact F.
      destruct (Nat.eqb i j) eqn:E; [|reflexivity]. apply Nat.eqb_eq in E. congruence.
    + intros l. rewrite nth_upd. destruct (Nat.eqb c l) eqn:E.
      * apply Nat.eqb_eq in E. subst l. rewrite N. eauto.
      * destruct (nth_error h l) as [[]|]; eauto.
Qed.
Lemma kind_container h h' l : match nth_error h l with
                       | Some (Obj _) => exists fs, nth_error h' l = Some (Obj fs)
                       | Some (Arr _) => exists ls, nth_error h' l = Some (Arr ls)
                       | x => nth_error h' l = x
                       end -> (container h' l <-> container h l).
Proof.
  unfold container. destruct (nth_error h l) as [[]|]; intros E; try (destruct E as (? & E)); rewrite E; tauto.
Qed.

Section Attach.
  Variables (h h' : list node) (root : nat) (cp : list slot) (c : nat) (s : slot) (n : nat).
  Hypothesis C : closed h. Hypothesis R : root < length h. Hypothesis U : unshared h root.
  Hypothesis A : at_path h root cp = Some c. Hypothesis K : container h c.
  Hypothesis T : attached h h' c s n.
  Hypothesis Ln : n < length h. Hypothesis Un : unshared h n. Hypothesis Ap : apart h root n.
  Let t := cp ++ [s].

  Lemma attach_n r : at_path h' n r = at_path h n r.
  Proof.
    apply (frame_away h h' c); [exact C|exact Ln|apply T|]. intros r' E. apply (Ap cp r' c A E K).
  Qed.
  Lemma attach_frame q : ~ below t q -> at_path h' root q = at_path h root q.
  Proof.
    intros N. apply (frame h h' root cp c C R U A K (att_but _ _ _ _ _ T) q [] root); [reflexivity|].
    intros q1 s' q2 -> E. cbn in E. subst q1. apply T. intros ->. apply N. exists q2. unfold t. rewrite <- app_assoc. reflexivity.
  Qed.
  Lemma attach_below r : at_path h' root (t ++ r) = at_path h n r.
  Proof.
    unfold t. rewrite <- app_assoc, at_app. rewrite attach_frame.
    - rewrite A. cbn. rewrite (att_in _ _ _ _ _ T). apply attach_n.
    - intros (x & E). apply (f_equal (@length slot)) in E. unfold t in E. rewrite !app_length in E. cbn in E. lia.
  Qed.
  Lemma attach_closed : closed h'.
  Proof.
    intros l s' l' E. rewrite (att_len _ _ _ _ _ T). destruct (Nat.eq_dec l c) as [->|N].
    - destruct (slot_dec s' s) as [->|D]; [rewrite (att_in _ _ _ _ _ T) in E; congruence|].
      rewrite (att_other _ _ _ _ _ T s' D) in E. eapply C, E.
    - destruct (Nat.lt_ge_cases l (length h)) as [L|G].
      + rewrite (but_child h h' c l s' (att_but _ _ _ _ _ T) L N) in E. eapply C, E.
      + exfalso. unfold child in E. replace (nth_error h' l) with (@None node) in E; [discriminate|].
        symmetry. apply nth_error_None. rewrite (att_len _ _ _ _ _ T). exact G.
  Qed.
  Lemma attach_unshared : unshared h' root.
  Proof.
    intros p q l P Q Kl. apply (kind_container h h' l (att_kind _ _ _ _ _ T l)) in Kl.
    destruct (extends_dec t p) as [(r & ->)|Np], (extends_dec t q) as [(r' & ->)|Nq].
    - rewrite attach_below in P, Q. f_equal. apply (Un r r' l P Q Kl).
    - rewrite attach_below in P. rewrite attach_frame in Q by exact Nq. destruct (Ap q r l Q P Kl).
    - rewrite attach_below in Q. rewrite attach_frame in P by exact Np. destruct (Ap p r' l P Q Kl).
    - rewrite attach_frame in P by exact Np. rewrite attach_frame in Q by exact Nq. apply (U p q l P Q Kl).
  Qed.
  Lemma attach_document : document h' root.
  Proof. split; [apply attach_closed|]. split; [rewrite (att_len _ _ _ _ _ T); exact R|apply attach_unshared]. Qed.
End Attach.

(** ** Pointers *)
Definition key_step (h : list node) (l : nat) (k : list byte) : res (nat + code) :=
  match nth_error h l with
  | Some (Obj fs) =>
    do u <- unescape_key k;
    match u with
    | None => Ok (inr Invalid_pointer)
    | Some name => match lookup beqb name fs with None => Ok (inr No_such_element) | Some l' => Ok (inl l') end
    end
  | Some (Arr ls) => do i <- atol k; match arr_get ls i with None => Ok (inr No_such_element) | Some l' => Ok (inl l') end
  | Some _ => Ok (inr No_such_element)
  | None => Err UB
  end.
Lemma find_cons h l k r : find_keys h l (k :: r) = do f <- key_step h l k; match f with inl l' => find_keys h l' r | inr e => Ok (inr e) end.
Proof.
  cbn [find_keys]. unfold key_step. destruct (nth_error h l) as [[fs|ls|v|]|]; try reflexivity.
  - destruct (unescape_key k) as [[name|]|]; cbn; try reflexivity. destruct (lookup beqb name fs); reflexivity.
  - destruct (atol k) as [i|]; cbn; [|reflexivity]. destruct (arr_get ls i); reflexivity.
Qed.
Lemma find_app h l a b : find_keys h l (a ++ b) = do f <- find_keys h l a; match f with inl l' => find_keys h l' b | inr e => Ok (inr e) end.
Proof.
  revert l. induction a as [|k a IH]; intros l; [reflexivity|]. rewrite <- app_comm_cons, !find_cons.
  destruct (key_step h l k) as [[l'|e]|]; cbn [rbind]; [apply IH|reflexivity|reflexivity].
Qed.
Lemma step_slot h l k l' : key_step h l k = Ok (inl l') -> exists s, slot_of h l k = Some s /\ child h l s = Some l'.
Proof.
  unfold key_step, slot_of, child. destruct (nth_error h l) as [[fs|ls|v|]|]; try discriminate.
  - destruct (unescape_key k) as [[name|]|]; cbn; try discriminate. destruct (lookup beqb name fs) eqn:E; [|discriminate].
    intros X. injection X as <-. exists (Key name). auto.
  - destruct (atol k) as [i|]; cbn; [|discriminate]. unfold arr_get. destruct (Z.ltb i 0); [discriminate|].
    destruct (nth_error ls (Z.to_nat i)) eqn:E; [|discriminate]. intros X. injection X as <-. exists (Index (Z.to_nat i)). auto.
Qed.
(** A step is decided by the kind of the node, the slot and the child there. *)
Lemma step_like h h' l k : match nth_error h l with
                       | Some (Obj _) => exists fs, nth_error h' l = Some (Obj fs)
                       | Some (Arr _) => exists ls, nth_error h' l = Some (Arr ls)
                       | x => nth_error h' l = x
                       end -> slot_of h' l k = slot_of h l k /\
  ((forall s, slot_of h l k = Some s -> child h' l s = child h l s) -> key_step h' l k = key_step h l k).
Proof.
  unfold key_step, slot_of, child. destruct (nth_error h l) as [[fs|ls|v|]|]; intros E; try (destruct E as (fs' & E)); rewrite E; try (split; reflexivity).
  - split; [reflexivity|]. intros H. destruct (unescape_key k) as [[name|]|]; cbn; try reflexivity. rewrite (H (Key name) eq_refl). reflexivity.
  - split; [reflexivity|]. intros H. destruct (atol k) as [i|]; cbn; [|reflexivity]. unfold arr_get. destruct (Z.ltb i 0); [reflexivity|].
    rewrite (H (Index (Z.to_nat i)) eq_refl). reflexivity.
Qed.
Lemma find_route h ks : forall l m, find_keys h l ks = Ok (inl m) -> at_path h l (route_keys h l ks) = Some m.
Proof.
  induction ks as [|k ks IH]; intros l m E; [injection E as ->; reflexivity|]. rewrite find_cons in E.
  destruct (key_step h l k) as [[l'|e]|] eqn:S; cbn in E; try discriminate. destruct (step_slot h l k l' S) as (s & E1 & E2).
  cbn. rewrite E1. cbn. rewrite E2. apply IH, E.
Qed.
Lemma route_app h a b : forall l m, find_keys h l a = Ok (inl m) -> route_keys h l (a ++ b) = route_keys h l a ++ route_keys h m b.
Proof.
  induction a as [|k a IH]; intros l m E; [injection E as ->; reflexivity|]. rewrite find_cons in E.
  destruct (key_step h l k) as [[l'|e]|] eqn:S; cbn in E; try discriminate. destruct (step_slot h l k l' S) as (s & E1 & E2).
  cbn. rewrite E1, E2. cbn. f_equal. apply IH, E.
Qed.

Section Elsewhere.
  Variables (h h' : list node) (root : nat) (t : list slot).
  Hypothesis C : closed h. Hypothesis R : root < length h.
  Hypothesis Kd : forall l, l < length h -> match nth_error h l with
                       | Some (Obj _) => exists fs, nth_error h' l = Some (Obj fs)
                       | Some (Arr _) => exists ls, nth_error h' l = Some (Arr ls)
                       | x => nth_error h' l = x
                       end.
  (** Only the slot at the path [t] differs. *)
  Hypothesis Ot : forall p l s, at_path h root p = Some l -> p ++ [s] <> t -> child h' l s = child h l s.

  Lemma find_like ks : forall p l, at_path h root p = Some l -> ~ below t (p ++ route_keys h l ks) ->
    find_keys h' l ks = find_keys h l ks /\ route_keys h' l ks = route_keys h l ks.
  Proof.
    induction ks as [|k ks IH]; intros p l P N; [split; reflexivity|].
    assert (L : l < length h) by (eapply at_closed; eassumption).
    destruct (step_like h h' l k (Kd l L)) as [S1 S2]. rewrite !find_cons. cbn [route_keys] in N |- *. rewrite S1.
    destruct (slot_of h l k) as [s|] eqn:Es.
    - assert (Ch : child h' l s = child h l s).
      { apply (Ot p l s P). intros <-. apply N. eexists. rewrite <- app_assoc. reflexivity. }
      rewrite Ch. rewrite S2 by (intros s' X; injection X as <-; exact Ch).
      destruct (key_step h l k) as [[l'|e]|] eqn:St; cbn [rbind].
      + destruct (step_slot h l k l' St) as (s' & E1 & E2). rewrite Es in E1. injection E1 as <-. rewrite E2 in N |- *.
        destruct (IH (p ++ [s]) l') as [I1 I2]; [rewrite (at_snoc h root p s l P); exact E2| |].
        * rewrite <- app_assoc. exact N.
        * split; [exact I1|]. f_equal. exact I2.
      + split; [reflexivity|]. destruct (child h l s) as [m|] eqn:Cm; [|reflexivity]. exfalso.
        unfold key_step, slot_of, child in *. destruct (nth_error h l) as [[fs|ls|v|]|]; try discriminate.
        * destruct (unescape_key k) as [[name|]|]; try discriminate. injection Es as <-. cbn in St. rewrite Cm in St. discriminate.
        * destruct (atol k) as [i|]; [|discriminate]. cbn in St. unfold arr_get in St. destruct (Z.ltb i 0); [discriminate|].
          injection Es as <-. rewrite Cm in St. discriminate.
      + split; [reflexivity|]. destruct (child h l s) as [m|] eqn:Cm; [|reflexivity]. exfalso.
        unfold key_step, slot_of, child in *. destruct (nth_error h l) as [[fs|ls|v|]|]; try discriminate.
        * destruct (unescape_key k) as [[name|]|]; try discriminate. injection Es as <-. cbn in St. rewrite Cm in St. discriminate.
        * destruct (atol k) as [i|]; [|discriminate]. cbn in St. unfold arr_get in St. destruct (Z.ltb i 0); [discriminate|].
          injection Es as <-. rewrite Cm in St. discriminate.
    - rewrite S2 by discriminate. split; [|reflexivity]. destruct (key_step h l k) as [[l'|e]|] eqn:St; try reflexivity.
      destruct (step_slot h l k l' St) as (s' & E1 & _). congruence.
  Qed.
  Lemma read_like ptr : ~ below t (route h root ptr) -> read h' root ptr = read h root ptr /\ route h' root ptr = route h root ptr.
  Proof.
    intros N. destruct (find_like (raw_keys ptr) [] root eq_refl N) as [F G]. split; [|exact G]. unfold read, find_node. rewrite F.
    destruct (find_keys h root (raw_keys ptr)) as [[l|e]|] eqn:E; cbn [rbind]; try reflexivity.
    assert (L : l < length h) by (eapply at_closed; [exact C|exact R|eapply find_route, E]).
    specialize (Kd l L). destruct (nth_error h l) as [[]|]; try (destruct Kd as (? & ->)); try rewrite Kd; reflexivity.
  Qed.
End Elsewhere.

(** ** The container of a pointer *)

Lemma last_split s : match find_last slash s with
                     | Some i => s = firstn i s ++ slash :: skipn (S i) s /\ Forall (fun x => x <> slash) (skipn (S i) s)
                     | None => Forall (fun x => x <> slash) s
                     end.
Proof.
  induction s as [|x s IH]; cbn [find_last]; [constructor|]. destruct (find_last slash s) as [i|].
  - destruct IH as [E F]. cbn [firstn skipn app]. split; [f_equal; exact E|exact F].
  - destruct (beq x slash) eqn:B.
    + apply GlobProofs.beq_eq in B. subst. cbn. auto.
    + constructor; [|exact IH]. intros ->. rewrite GlobProofs.beq_refl in B. discriminate.
Qed.
Lemma split_ne a : split slash a <> [].
Proof. destruct a as [|x a]; cbn [split]; [discriminate|]. destruct (beq x slash); [discriminate|]. destruct (split slash a); discriminate. Qed.
Lemma split_snoc a b : Forall (fun x => x <> slash) b -> split slash (a ++ slash :: b) = split slash a ++ [b].
Proof.
  intros F. induction a as [|x a IH]; cbn [app split].
  - rewrite GlobProofs.beq_refl, (split_noslash b F). reflexivity.
  - rewrite IH. destruct (beq x slash); [reflexivity|]. destruct (split slash a) as [|k ks] eqn:E; [|reflexivity].
    destruct (split_ne a E).
Qed.
Lemma raw_keys_split ptr cp key : container_split ptr = Ok (cp, key) -> raw_keys ptr = raw_keys cp ++ [key].
Proof.
  unfold container_split. pose proof (last_split ptr) as H. destruct (find_last slash ptr) as [i|].
  - destruct H as [E F]. set (a := firstn i ptr) in *. set (b := skipn (S i) ptr) in *.
    assert (Li : length a = i).
    { unfold a. rewrite firstn_length. assert (length ptr = length (firstn i ptr) + S (length (skipn (S i) ptr))) as X.
      { fold a b. rewrite E at 1. rewrite app_length. reflexivity. } rewrite firstn_length, skipn_length in X. lia. }
    rewrite E at 1. rewrite <- Li at 1. rewrite nth_error_mid. change (beq slash slash) with true. cbv iota.
    intros X. injection X as <- <-. replace (i + 1) with (S i) by lia. fold b. rewrite E. unfold raw_keys.
    destruct a as [|x a]; cbn [app].
    + change (beq slash slash) with true. cbv iota. apply split_noslash, F.
    + destruct (beq x slash); [apply split_snoc, F|]. apply (split_snoc (x :: a) b F).
  - destruct ptr as [|x r]; [discriminate|]. cbn [nth_error firstn]. inversion H as [|? ? Hx Hr]; subst.
    destruct (beq x slash) eqn:B; [apply GlobProofs.beq_eq in B; congruence|].
    intros X. injection X as <- <-. unfold raw_keys. rewrite B. exact (split_noslash (x :: r) H).
Qed.

Lemma container_spec h root ptr c s : find_container h root ptr = Ok (inl (c, s)) ->
  exists cp key, container_split ptr = Ok (cp, key) /\ find_node h root cp = Ok (inl c) /\ slot_fits h c s /\ container h c /\
    (proper h root ptr = true -> slot_of h c key = Some s).
Proof.
  unfold find_container, container_split, proper. set (pos := match find_last slash ptr with Some i => i | None => 0 end).
  unfold container_split. fold pos.
  destruct (find_node h root (firstn pos ptr)) as [[c'|e]|] eqn:F; cbn [rbind]; try discriminate.
  2:{ destruct e; discriminate. }
  destruct (nth_error ptr pos) as [b|]; [|discriminate]. set (key := if beq b slash then skipn (pos + 1) ptr else ptr). cbn zeta.
  intros E. exists (firstn pos ptr), key. split; [reflexivity|]. rewrite F. unfold slot_fits, container, slot_of.
  destruct (nth_error h c') as [[fs|ls|v|]|] eqn:N; try discriminate.
  - destruct (unescape_key key) as [[name|]|]; cbn in E; try discriminate. injection E as <- <-. rewrite N. auto.
  - destruct (atol key) as [i|]; cbn in E; [|discriminate]. destruct (Z.ltb i 0) eqn:I0; [discriminate|]. injection E as <- <-. rewrite N.
    apply Z.ltb_ge in I0.
    assert (M : (Z.min (i mod 2 ^ 32) (Z.of_nat (length ls) mod 2 ^ 32) <= Z.of_nat (length ls))%Z).
    { etransitivity; [apply Z.le_min_r|]. apply Z.mod_le; lia. }
    assert (M0 : (0 <= Z.min (i mod 2 ^ 32) (Z.of_nat (length ls) mod 2 ^ 32))%Z) by (apply Z.min_glb; apply Z.mod_pos_bound; lia).
    split; [reflexivity|]. split; [lia|]. split; [exact Logic.I|]. intros P. replace (i <? 0)%Z with false by (symmetry; apply Z.ltb_ge; exact I0).
    apply andb_true_iff in P. destruct P as [P P3]. apply andb_true_iff in P. destruct P as [P1 P2].
    apply Z.leb_le in P1. apply Z.ltb_lt in P2. apply Z.ltb_lt in P3.
    rewrite !Z.mod_small by lia. rewrite Z.min_l by lia. reflexivity.
Qed.

(** ** More nodes *)
Lemma grow_node (h : list node) x l : l < length h -> nth_error (h ++ [x]) l = nth_error h l.
Proof. intros L. apply nth_error_app1, L. Qed.
Lemma grow_child h x l s : l < length h -> child (h ++ [x]) l s = child h l s.
Proof. intros L. unfold child. rewrite grow_node by exact L. reflexivity. Qed.
Lemma grow_at h x p : forall l, closed h -> l < length h -> at_path (h ++ [x]) l p = at_path h l p.
Proof.
  induction p as [|s p IH]; intros l C L; [reflexivity|]. cbn. rewrite grow_child by exact L.
  destruct (child h l s) eqn:E; [|reflexivity]. apply IH; [exact C|]. eapply C, E.
Qed.
Lemma grow_find h x ks : forall l, closed h -> l < length h -> find_keys (h ++ [x]) l ks = find_keys h l ks /\ route_keys (h ++ [x]) l ks = route_keys h l ks.
Proof.
  intros l C L. apply (find_like h (h ++ [x]) l (route_keys h l ks ++ [Key []])) with (p := []); [exact C|exact L| | |reflexivity|].
  - intros m M. rewrite grow_node by exact M. destruct (nth_error h m) as [[]|]; eauto.
  - intros p m s P _. apply grow_child. eapply at_closed; eassumption.
  - intros (r & E). apply (f_equal (@length slot)) in E. rewrite !app_length in E. cbn in E. lia.
Qed.
Lemma grow_container h root x ptr : document h root -> find_container (h ++ [x]) root ptr = find_container h root ptr /\ proper (h ++ [x]) root ptr = proper h root ptr.
Proof.
  intros (C & R & U). unfold find_container, proper, find_node. set (pos := match find_last slash ptr with Some i => i | None => 0 end).
  split.
  - destruct (grow_find h x (raw_keys (firstn pos ptr)) root C R) as [-> _].
    destruct (find_keys h root (raw_keys (firstn pos ptr))) as [[c|e]|] eqn:F; cbn [rbind]; try reflexivity.
    destruct (nth_error ptr pos); [|reflexivity]. rewrite grow_node; [reflexivity|].
    eapply at_closed; [exact C|exact R|]. eapply find_route, F.
  - destruct (container_split ptr) as [[cp key]|]; [|reflexivity]. destruct (grow_find h x (raw_keys cp) root C R) as [-> _].
    destruct (find_keys h root (raw_keys cp)) as [[c|e]|] eqn:F; try reflexivity. rewrite grow_node; [reflexivity|].
    eapply at_closed; [exact C|exact R|]. eapply find_route, F.
Qed.
Lemma grow_read h root x ptr : document h root -> read (h ++ [x]) root ptr = read h root ptr /\ route (h ++ [x]) root ptr = route h root ptr.
Proof.
  intros (C & R & U). unfold read, route, find_node. destruct (grow_find h x (raw_keys ptr) root C R) as [-> ->]. split; [|reflexivity].
  destruct (find_keys h root (raw_keys ptr)) as [[c|e]|] eqn:F; cbn [rbind]; try reflexivity. rewrite grow_node; [reflexivity|].
  eapply at_closed; [exact C|exact R|]. eapply find_route, F.
Qed.

(** A node whose children, if any, are values. *)
Lemma flat_child h x s l : flat h x -> child (h ++ [x]) (length h) s = Some l -> l < length h /\ ~ container h l.
Proof.
  unfold child, flat. rewrite nth_error_app2, Nat.sub_diag by lia. cbn.
  destruct x as [fs|ls|v|]; try discriminate; destruct s; try discriminate; eauto.
Qed.
Lemma grow_document h root x : document h root -> flat h x ->
  document (h ++ [x]) root /\ length h < length (h ++ [x]) /\ unshared (h ++ [x]) (length h) /\ apart (h ++ [x]) root (length h).
Proof.
  intros (C & R & U) F.
  assert (Lx : length h < length (h ++ [x])) by (rewrite app_length; cbn; lia).
  assert (Kl : forall l, l < length h -> container (h ++ [x]) l -> container h l) by (intros l L; unfold container; rewrite grow_node by exact L; auto).
  assert (N : forall q l, at_path (h ++ [x]) (length h) q = Some l -> container (h ++ [x]) l -> q = []).
  { intros q l Q K. destruct q as [|s q]; [reflexivity|]. exfalso. cbn in Q. destruct (child (h ++ [x]) (length h) s) as [m|] eqn:E; [|discriminate].
    destruct (flat_child h x s m F E) as [Lm Nm]. destruct q as [|s' q].
    - injection Q as ->. apply Nm, (Kl l Lm K).
    - cbn in Q. destruct (child (h ++ [x]) m s') eqn:E2; [|discriminate]. apply Nm, (Kl m Lm), (child_container _ _ _ _ E2). }
  split; [|split; [exact Lx|split]].
  - split; [|split; [lia|]].
    + intros l s l' E. destruct (Nat.lt_ge_cases l (length h)) as [L|G].
      * rewrite grow_child in E by exact L. specialize (C _ _ _ E). lia.
      * destruct (Nat.eq_dec l (length h)) as [->|D].
        -- destruct (flat_child h x s l' F E). lia.
        -- unfold child in E. replace (nth_error (h ++ [x]) l) with (@None node) in E; [discriminate|].
           symmetry. apply nth_error_None. rewrite app_length. cbn. lia.
    + intros p q l P Q K. rewrite grow_at in P, Q by assumption. apply (U p q l P Q). apply Kl; [eapply at_closed; eassumption|exact K].
  - intros p q l P Q K. rewrite (N p l P K), (N q l Q K). reflexivity.
  - intros p q l P Q K. rewrite (N q l Q K) in Q. injection Q as <-. rewrite grow_at in P by assumption.
    assert (length h < length h) by (eapply at_closed; eassumption). lia.
Qed.

(** ** Setting *)
Lemma set_core h root ptr n c s h' : document h root -> n < length h -> unshared h n -> apart h root n ->
  find_container h root ptr = Ok (inl (c, s)) -> proper h root ptr = true -> attach h c s n = Ok h' ->
  document h' root /\ find_node h' root ptr = Ok (inl n) /\ (forall r, at_path h' n r = at_path h n r) /\
  (forall l, nth_error h l = nth_error h' l \/ container h l) /\
  forall ptr', ~ below (route h root ptr) (route h root ptr') -> read h' root ptr' = read h root ptr' /\ route h' root ptr' = route h root ptr'.
Proof.
  intros (C & R & U) Ln Un Ap F P E. destruct (container_spec h root ptr c s F) as (cp & key & S & Fc & Fit & K & Sl). specialize (Sl P).
  destruct (attach_spec h c s n h' E Fit) as [T _].
  pose proof (find_route h _ _ _ Fc) as A. set (cpath := route_keys h root (raw_keys cp)) in *.
  assert (Rt : route h root ptr = cpath ++ [s]).
  { unfold route. rewrite (raw_keys_split ptr cp key S), (route_app h _ [key] root c Fc). cbn. rewrite Sl.
    fold cpath. destruct (child h c s); reflexivity. }
  assert (Kd : forall l, l < length h -> match nth_error h l with
                       | Some (Obj _) => exists fs, nth_error h' l = Some (Obj fs)
                       | Some (Arr _) => exists ls, nth_error h' l = Some (Arr ls)
                       | x => nth_error h' l = x
                       end) by (intros l _; apply T).
  assert (Ot : forall p l s', at_path h root p = Some l -> p ++ [s'] <> cpath ++ [s] -> child h' l s' = child h l s').
  { intros p l s' Pl D. destruct (Nat.eq_dec l c) as [->|N].
    - apply T. intros ->. apply D. f_equal. apply (U p cpath c Pl A K).
    - apply (but_child h h' c); [apply T|exact (at_closed h root p l C R Pl)|exact N]. }
  split; [eapply attach_document; eassumption|]. split; [|split; [|split]].
  - unfold find_node. rewrite (raw_keys_split ptr cp key S), find_app.
    destruct (find_like h h' root (cpath ++ [s]) C R Kd Ot (raw_keys cp) [] root eq_refl) as [Ef _].
    { intros (r & X). apply (f_equal (@length slot)) in X. cbn [app] in X. fold cpath in X. rewrite !app_length in X. cbn in X. lia. }
    rewrite Ef. unfold find_node in Fc. rewrite Fc. cbn [rbind find_keys].
    assert (Ic := att_in _ _ _ _ _ T). pose proof (att_kind _ _ _ _ _ T c) as Kc. unfold slot_of in Sl. unfold child in Ic.
    destruct (nth_error h c) as [[fs|ls|v|]|]; try discriminate; destruct Kc as (fs' & Kc); rewrite Kc in Ic |- *.
    + destruct (unescape_key key) as [[name|]|]; try discriminate. injection Sl as <-. cbn [rbind]. rewrite Ic. reflexivity.
    + destruct (atol key) as [i|]; [|discriminate]. unfold arr_get. destruct (Z.ltb i 0) eqn:I0; [discriminate|]. injection Sl as <-. cbn [rbind]. rewrite I0, Ic. reflexivity.
  - intros r. eapply attach_n; eassumption.
  - intros l. pose proof (att_kind _ _ _ _ _ T l) as Q. unfold container. destruct (nth_error h l) as [[]|]; auto.
  - rewrite Rt. intros ptr' N. apply (read_like h h' root (cpath ++ [s]) C R Kd Ot ptr' N).
Qed.

Theorem set_new_ok h root ptr x h' : document h root -> proper h root ptr = true -> flat h x -> set_new h root ptr x = Ok (h', Success) ->
  document h' root /\ find_node h' root ptr = Ok (inl (length h)) /\
  (forall r, at_path h' (length h) r = at_path (h ++ [x]) (length h) r) /\ (nth_error h' (length h) = Some x) /\
  forall ptr', ~ below (route h root ptr) (route h root ptr') -> read h' root ptr' = read h root ptr' /\ route h' root ptr' = route h root ptr'.
Proof.
  intros D P F E. unfold set_new in E. destruct (find_container h root ptr) as [[[c s]|e]|] eqn:Fc; cbn [rbind] in E; try discriminate.
  2:{ exfalso. injection E as _ ->. unfold find_container in Fc.
      destruct (find_node h root _) as [[c|[]]|]; cbn in Fc; try discriminate. destruct (nth_error ptr _); [|discriminate].
      destruct (nth_error h c) as [[]|]; try discriminate.
      - destruct (unescape_key _) as [[]|]; discriminate.
      - destruct (atol _) as [i|]; [|discriminate]. cbn in Fc. destruct (Z.ltb i 0); discriminate. }
  destruct (attach (h ++ [x]) c s (length h)) as [h2|] eqn:At; cbn [rbind] in E; [|discriminate]. injection E as ->.
  destruct (grow_document h root x D F) as (D1 & Ln & Un & Ap).
  destruct (grow_container h root x ptr D) as [Gc Gp]. rewrite <- Gc in Fc. rewrite <- Gp in P.
  destruct (set_core (h ++ [x]) root ptr (length h) c s h' D1 Ln Un Ap Fc P At) as (D2 & Fn & An & Ov & Rd).
  split; [exact D2|]. split; [exact Fn|]. split; [exact An|]. split.
  - assert (Nc : c <> length h).
    { intros ->. destruct (container_spec _ _ _ _ _ Fc) as (cp & key & _ & Fcc & _ & K & _). apply find_route in Fcc.
      apply (Ap (route_keys (h ++ [x]) root (raw_keys cp)) [] (length h) Fcc eq_refl K). }
    unfold attach in At.
    assert (Nx : nth_error (h ++ [x]) (length h) = Some x) by (rewrite nth_error_app2, Nat.sub_diag by lia; reflexivity).
    destruct (nth_error (h ++ [x]) c) as [[]|]; try discriminate; destruct s; try discriminate; injection At as <-;
      rewrite nth_upd; apply Nat.eqb_neq in Nc; rewrite Nc; exact Nx.
  - intros ptr' N. destruct (grow_read h root x ptr D) as [_ R1]. destruct (grow_read h root x ptr' D) as [R2 R3].
    specialize (Rd ptr'). rewrite R1, R2, R3 in Rd. exact (Rd N).
Qed.

(** ** Removing *)
Definition shift_slot (s0 s : slot) : slot :=
  match s0, s with Index i, Index j => if j <? i then Index j else Index (S j) | _, _ => s end.
Lemma shift_inj s0 a b : shift_slot s0 a = shift_slot s0 b -> a = b.
Proof.
  destruct s0 as [k|i]; [intros E; exact E|]. destruct a as [ka|x], b as [kb|y]; cbn [shift_slot]; intros E.
  - exact E.
  - destruct (y <? i); discriminate E.
  - destruct (x <? i); discriminate E.
  - destruct (x <? i) eqn:X, (y <? i) eqn:Y; injection E as E; f_equal; try apply Nat.ltb_lt in X; try apply Nat.ltb_ge in X;
      try apply Nat.ltb_lt in Y; try apply Nat.ltb_ge in Y; lia.
Qed.

Record detached (h h' : list node) (c : nat) (s : slot) (n : nat) : Prop := {
  det_len : length h' = length h;
  det_but : but h h' c;
  det_was : child h c s = Some n;
  det_child : forall s' l, child h' c s' = Some l -> child h c (shift_slot s s') = Some l /\ shift_slot s s' <> s;
  det_back : forall s', shift_slot s s' <> s -> child h' c s' = child h c (shift_slot s s');
  det_key : forall k, s = Key k -> child h' c s = None;
  det_kind : forall l, match nth_error h l with
                       | Some (Obj _) => exists fs, nth_error h' l = Some (Obj fs)
                       | Some (Arr _) => exists ls, nth_error h' l = Some (Arr ls)
                       | x => nth_error h' l = x
                       end }.
Lemma nth_drop ls i j : nth_error (arr_drop ls i) j = nth_error ls (if j <? i then j else S j).
Proof.
  unfold arr_drop. destruct (Nat.le_gt_cases (length ls) i) as [G|L].
  - rewrite firstn_all2 by lia. rewrite skipn_all2 by lia. rewrite app_nil_r. destruct (j <? i) eqn:E; [reflexivity|].
    apply Nat.ltb_ge in E. transitivity (@None nat); [|symmetry]; apply nth_error_None; lia.
  - assert (Lf : length (firstn i ls) = i) by (rewrite firstn_length; lia).
    destruct (j <? i) eqn:E.
    + apply Nat.ltb_lt in E. rewrite nth_error_app1 by lia. rewrite <- (firstn_skipn i ls) at 2. rewrite nth_error_app1 by lia. reflexivity.
    + apply Nat.ltb_ge in E. rewrite nth_error_app2 by lia. rewrite Lf.
      rewrite <- (firstn_skipn (S i) ls) at 2. rewrite nth_error_app2 by (rewrite firstn_length; lia).
      f_equal. rewrite firstn_length. lia.
Qed.
Lemma remove_spec h root ptr h' n : remove h root ptr = Ok (h', inl n) ->
  exists c s, find_container h root ptr = Ok (inl (c, s)) /\ detached h h' c s n.
Proof.
  unfold remove. destruct (find_container h root ptr) as [[[c s]|e]|]; cbn [rbind]; try discriminate.
  destruct (nth_error h c) as [[fs|ls|v|]|] eqn:N; try discriminate; destruct s as [k|i]; try discriminate.
  - destruct (lookup beqb k fs) as [m|] eqn:L; [|discriminate]. intros E. injection E as <- <-. exists c, (Key k). split; [reflexivity|].
    assert (Nc : nth_error (upd h c (Obj (obj_drop fs k))) c = Some (Obj (obj_drop fs k))) by (rewrite nth_upd, Nat.eqb_refl, N; reflexivity).
    assert (Lk : forall k', lookup beqb k' (obj_drop fs k) = if beqb k' k then None else lookup beqb k' fs).
    { intros k'. unfold obj_drop. rewrite (JoinProofs.lookup_filter k' (fun a => negb (beqb a k)) fs).
      destruct (beqb k' k); reflexivity. }
    constructor.
    + apply upd_length.
    + intros l _ D. rewrite nth_upd. apply Nat.eqb_neq in D. rewrite Nat.eqb_sym, D. reflexivity.
    + unfold child. rewrite N. exact L.
    + intros s' l. unfold child. rewrite Nc, N. destruct s' as [k'|j]; cbn; [|discriminate]. rewrite Lk.
      destruct (beqb k' k) eqn:B; [discriminate|]. intros X. split; [exact X|]. intros Y. injection Y as ->. rewrite beqb_refl in B. discriminate.
    + intros s' D. unfold child. rewrite Nc, N. destruct s' as [k'|j]; cbn; [|reflexivity]. rewrite Lk.
      destruct (beqb k' k) eqn:B; [|reflexivity]. apply beqb_eq in B. subst. cbn in D. congruence.
    + intros k' X. injection X as <-. unfold child. rewrite Nc, Lk, beqb_refl. reflexivity.
    + intros l. rewrite nth_upd. destruct (Nat.eqb c l) eqn:E.
      * apply Nat.eqb_eq in E. subst l. rewrite N. eauto.
      * destruct (nth_error h l) as [[]|]; eauto.
  - destruct (nth_error ls i) as [m|] eqn:L; [|discriminate]. intros E. injection E as <- <-. exists c, (Index i). split; [reflexivity|].
    assert (Nc : nth_error (upd h c (Arr (arr_drop ls i))) c = Some (Arr (arr_drop ls i))) by (rewrite nth_upd, Nat.eqb_refl, N; reflexivity).
    constructor.
    + apply upd_length.
    + intros l _ D. rewrite nth_upd. apply Nat.eqb_neq in D. rewrite Nat.eqb_sym, D. reflexivity.
    + unfold child. rewrite N. exact L.
    + intros s' l. unfold child. rewrite Nc, N. destruct s' as [k'|j]; cbn [shift_slot]; [discriminate|]. rewrite nth_drop.
      destruct (j <? i) eqn:B; intros X; (split; [exact X|]); intros Y; injection Y as Y; [apply Nat.ltb_lt in B|apply Nat.ltb_ge in B]; lia.
    + intros s' D. unfold child. rewrite Nc, N. destruct s' as [k'|j]; cbn [shift_slot]; [reflexivity|]. rewrite nth_drop.
      destruct (j <? i); reflexivity.
    + discriminate.
    + intros l. rewrite nth_upd. destruct (Nat.eqb c l) eqn:E.
      * apply Nat.eqb_eq in E. subst l. rewrite N. eauto.
      * destruct (nth_error h l) as [[]|]; eauto.
Qed.

Section Detach.
  Variables (h h' : list node) (root : nat) (cp : list slot) (c : nat) (s : slot) (n : nat).
  Hypothesis C : closed h. Hypothesis R : root < length h. Hypothesis U : unshared h root.
  Hypothesis A : at_path h root cp = Some c. Hypothesis K : container h c.
  Hypothesis T : detached h h' c s n.
  Let t := cp ++ [s].

  (** A path in the new document is this path in the old one. *)
  Definition old_path (p p' : list slot) : Prop :=
    (exists s' r, p = cp ++ s' :: r /\ p' = cp ++ shift_slot s s' :: r) \/ ((forall s' r, p <> cp ++ s' :: r) /\ p' = p).
  Lemma old_exists p : exists p', old_path p p'.
  Proof.
    destruct (extends_dec cp p) as [(r & ->)|N].
    - destruct r as [|s' r].
      + exists (cp ++ []). right. split; [|reflexivity]. intros s' r X. apply app_inv_head in X. discriminate.
      + exists (cp ++ shift_slot s s' :: r). left. eauto.
    - exists p. right. split; [|reflexivity]. intros s' r ->. apply N. eauto.
  Qed.
  Lemma old_inj p q p' : old_path p p' -> old_path q p' -> p = q.
  Proof.
    intros [(a & r & -> & E)|[N E]] [(b & r' & -> & E')|[N' E']].
    - rewrite E in E'. apply app_inv_head in E'. injection E' as X ->. apply shift_inj in X. subst. reflexivity.
    - exfalso. rewrite E in E'. apply (N' _ _ (eq_sym E')).
    - exfalso. rewrite E' in E. apply (N _ _ (eq_sym E)).
    - congruence.
  Qed.
  Lemma det_frame q : (forall s' r, q <> cp ++ s' :: r) -> at_path h' root q = at_path h root q.
  Proof.
    intros N. apply (frame h h' root cp c C R U A K (det_but _ _ _ _ _ T) q [] root); [reflexivity|].
    intros q1 s' q2 -> E. cbn in E. subst q1. destruct (N s' q2 eq_refl).
  Qed.
  Lemma det_below s' l r : child h c s' = Some l -> at_path h' l r = at_path h l r.
  Proof.
    intros E. apply (frame h h' root cp c C R U A K (det_but _ _ _ _ _ T) r (cp ++ [s']) l).
    - rewrite (at_snoc h root cp s' c A). exact E.
    - intros q1 s2 q2 _ X. exfalso. apply (f_equal (@length slot)) in X. rewrite !app_length in X. cbn in X. lia.
  Qed.
  Lemma det_old p p' l : old_path p p' -> at_path h' root p = Some l -> at_path h root p' = Some l /\ ~ below t p'.
  Proof.
    intros [(s' & r & -> & ->)|[N ->]] P.
    - rewrite at_app, det_frame in P by (intros s2 r2 X; rewrite <- (app_nil_r cp) in X at 1; apply app_inv_head in X; discriminate).
      rewrite A in P. cbn in P. destruct (child h' c s') as [m|] eqn:E; [|discriminate].
      destruct (det_child _ _ _ _ _ T s' m E) as [E1 E2]. rewrite at_app, A. cbn. rewrite E1. split; [rewrite <- P; symmetry; apply (det_below _ _ _ E1)|].
      intros (x & X). unfold t in X. rewrite <- app_assoc in X. apply app_inv_head in X. cbn in X. injection X as X _. congruence.
    - rewrite det_frame in P by exact N. split; [exact P|]. intros (x & ->). unfold t in N. rewrite <- app_assoc in N. apply (N s x eq_refl).
  Qed.
  Lemma det_closed : closed h'.
  Proof.
    intros l s' l' E. rewrite (det_len _ _ _ _ _ T). destruct (Nat.eq_dec l c) as [->|N].
    - destruct (det_child _ _ _ _ _ T s' l' E) as [E1 _]. eapply C, E1.
    - destruct (Nat.lt_ge_cases l (length h)) as [L|G].
      + rewrite (but_child h h' c l s' (det_but _ _ _ _ _ T) L N) in E. eapply C, E.
      + exfalso. unfold child in E. replace (nth_error h' l) with (@None node) in E; [discriminate|].
        symmetry. apply nth_error_None. rewrite (det_len _ _ _ _ _ T). exact G.
  Qed.
  Lemma det_container l : container h' l -> container h l.
  Proof. apply (kind_container h h' l (det_kind _ _ _ _ _ T l)). Qed.
  Lemma det_document : document h' root.
  Proof.
    split; [apply det_closed|]. split; [rewrite (det_len _ _ _ _ _ T); exact R|].
    intros p q l P Q Kl. destruct (old_exists p) as (p' & Op), (old_exists q) as (q' & Oq).
    destruct (det_old p p' l Op P) as [P1 _]. destruct (det_old q q' l Oq Q) as [Q1 _].
    assert (p' = q') by (apply (U p' q' l P1 Q1), det_container, Kl). subst q'. exact (old_inj p q p' Op Oq).
  Qed.
  Lemma det_root : at_path h root t = Some n.
  Proof. unfold t. rewrite (at_snoc h root cp s c A). apply T. Qed.
  Lemma det_n : n < length h' /\ unshared h' n /\ apart h' root n /\ forall r, at_path h' n r = at_path h n r.
  Proof.
    assert (An : forall r, at_path h' n r = at_path h n r) by (intros r; apply (det_below s n r), T).
    split; [rewrite (det_len _ _ _ _ _ T); eapply C, T|]. split; [|split; [|exact An]].
    - intros p q l P Q Kl. rewrite An in P, Q. apply (app_inv_head t). apply (U _ _ l); [| |apply det_container, Kl]; rewrite at_app, det_root; assumption.
    - intros p q l P Q Kl. rewrite An in Q. destruct (old_exists p) as (p' & Op). destruct (det_old p p' l Op P) as [P1 N].
      apply N. exists q. apply (U _ _ l P1); [rewrite at_app, det_root; exact Q|apply det_container, Kl].
  Qed.
End Detach.

(** The source of a removal is the node the pointer leads to. *)
Lemma remove_paths h root ptr h' n : document h root -> remove h root ptr = Ok (h', inl n) ->
  exists cp c s, at_path h root cp = Some c /\ container h c /\ detached h h' c s n /\
    (proper h root ptr = true -> route h root ptr = cp ++ [s] /\ find_node h root ptr = Ok (inl n)).
Proof.
  intros (C & R & U) E. destruct (remove_spec h root ptr h' n E) as (c & s & F & T).
  destruct (container_spec h root ptr c s F) as (cp & key & S & Fc & Fit & K & Sl).
  pose proof (find_route h _ _ _ Fc) as A. exists (route_keys h root (raw_keys cp)), c, s. split; [exact A|]. split; [exact K|]. split; [exact T|].
  intros P. specialize (Sl P). assert (W := det_was _ _ _ _ _ T). split.
  - unfold route. rewrite (raw_keys_split ptr cp key S), (route_app h _ [key] root c Fc). cbn. rewrite Sl, W. reflexivity.
  - unfold find_node. rewrite (raw_keys_split ptr cp key S), find_app. unfold find_node in Fc. rewrite Fc. cbn [rbind find_keys].
    unfold slot_of in Sl. unfold child in W. destruct (nth_error h c) as [[fs|ls|v|]|]; try discriminate.
    + destruct (unescape_key key) as [[name|]|]; try discriminate. injection Sl as <-. cbn [rbind]. rewrite W. reflexivity.
    + destruct (atol key) as [i|]; [|discriminate]. unfold arr_get. destruct (Z.ltb i 0) eqn:I0; [discriminate|]. injection Sl as <-. cbn [rbind]. rewrite I0, W. reflexivity.
Qed.

Lemma container_code h root ptr : find_container h root ptr <> Ok (inr Success).
Proof.
  unfold find_container. intros Fc.
  destruct (find_node h root _) as [[c|[]]|]; cbn in Fc; try discriminate. destruct (nth_error ptr _); [|discriminate].
  destruct (nth_error h c) as [[]|]; try discriminate.
  - destruct (unescape_key _) as [[]|]; discriminate.
  - destruct (atol _) as [i|]; [|discriminate]. cbn in Fc. destruct (Z.ltb i 0); discriminate.
Qed.

Theorem remove_ok h root ptr h' n : document h root -> proper h root ptr = true -> remove h root ptr = Ok (h', inl n) ->
  document h' root /\ find_node h root ptr = Ok (inl n) /\
  exists cp s, route h root ptr = cp ++ [s] /\ (forall l, nth_error h l = nth_error h' l \/ container h l) /\
    match s with
    | Key _ => read h' root ptr = Ok Nothing /\
        forall ptr', ~ below (route h root ptr) (route h root ptr') -> read h' root ptr' = read h root ptr' /\ route h' root ptr' = route h root ptr'
    | Index i =>
        (forall j r, at_path h' root (cp ++ Index j :: r) = at_path h root (cp ++ Index (if j <? i then j else S j) :: r)) /\
        (forall q, (forall s r, q <> cp ++ s :: r) -> at_path h' root q = at_path h root q)
    end.
Proof.
  intros D P E. pose proof D as (C & R & U).
  destruct (remove_spec h root ptr h' n E) as (c & s & F & T).
  destruct (container_spec h root ptr c s F) as (cptr & key & S & Fc & Fit & K & Sl). specialize (Sl P).
  pose proof (find_route h _ _ _ Fc) as A. set (cp := route_keys h root (raw_keys cptr)) in *.
  assert (W := det_was _ _ _ _ _ T).
  assert (Rt : route h root ptr = cp ++ [s]).
  { unfold route. rewrite (raw_keys_split ptr cptr key S), (route_app h _ [key] root c Fc). cbn. rewrite Sl, W. reflexivity. }
  assert (Fn : find_node h root ptr = Ok (inl n)).
  { unfold find_node. rewrite (raw_keys_split ptr cptr key S), find_app. unfold find_node in Fc. rewrite Fc. cbn [rbind find_keys].
    unfold slot_of in Sl. unfold child in W. destruct (nth_error h c) as [[fs|ls|v|]|]; try discriminate.
    + destruct (unescape_key key) as [[name|]|]; try discriminate. injection Sl as <-. cbn [rbind]. rewrite W. reflexivity.
    + destruct (atol key) as [i|]; [|discriminate]. unfold arr_get. destruct (Z.ltb i 0) eqn:I0; [discriminate|]. injection Sl as <-. cbn [rbind]. rewrite I0, W. reflexivity. }
  split; [eapply det_document; eassumption|]. split; [exact Fn|]. exists cp, s. split; [exact Rt|].
  split; [intros l; pose proof (det_kind _ _ _ _ _ T l) as Q; unfold container; destruct (nth_error h l) as [[]|]; auto|].
  destruct s as [k|i].
  - assert (Kd : forall l, l < length h -> match nth_error h l with
                       | Some (Obj _) => exists fs, nth_error h' l = Some (Obj fs)
                       | Some (Arr _) => exists ls, nth_error h' l = Some (Arr ls)
                       | x => nth_error h' l = x
                       end) by (intros l _; apply T).
    assert (Ot : forall p l s', at_path h root p = Some l -> p ++ [s'] <> cp ++ [Key k] -> child h' l s' = child h l s').
    { intros p l s' Pl N. destruct (Nat.eq_dec l c) as [->|Nl].
      - assert (p = cp) by (apply (U p cp c Pl A K)). subst p. rewrite (det_back _ _ _ _ _ T s'); [reflexivity|].
        cbn. intros ->. apply N. reflexivity.
      - apply (but_child h h' c); [apply T|exact (at_closed h root p l C R Pl)|exact Nl]. }
    rewrite Rt. split; [|intros ptr' N; exact (read_like h h' root (cp ++ [Key k]) C R Kd Ot ptr' N)].
    destruct (find_like h h' root (cp ++ [Key k]) C R Kd Ot (raw_keys cptr) [] root eq_refl) as [Ef _].
    { intros (r & X). apply (f_equal (@length slot)) in X. cbn [app] in X. fold cp in X. rewrite !app_length in X. cbn in X. lia. }
    unfold read, find_node. rewrite (raw_keys_split ptr cptr key S), find_app, Ef. unfold find_node in Fc. rewrite Fc. cbn [rbind find_keys].
    assert (Nk := det_key _ _ _ _ _ T k eq_refl). pose proof (det_kind _ _ _ _ _ T c) as Kc. unfold slot_of in Sl. unfold child in Nk.
    destruct (nth_error h c) as [[fs|ls|v|]|]; try discriminate; destruct Kc as (fs' & Kc); rewrite Kc in Nk |- *.
    + destruct (unescape_key key) as [[name|]|]; try discriminate. injection Sl as ->. cbn [rbind]. rewrite Nk. reflexivity.
    + destruct (atol key) as [i|]; [|discriminate]. destruct (Z.ltb i 0); discriminate.
  - split.
    + intros j r. rewrite !at_app, A.
      rewrite (det_frame h h' root cp c (Index i) n C R U A K T) by (intros s2 r2 X; rewrite <- (app_nil_r cp) in X at 1; apply app_inv_head in X; discriminate).
      rewrite A. cbn [at_path].
      assert (N : shift_slot (Index i) (Index j) <> Index i).
      { cbn [shift_slot]. destruct (j <? i) eqn:B; [apply Nat.ltb_lt in B|apply Nat.ltb_ge in B]; intros X; inversion X; lia. }
      rewrite (det_back _ _ _ _ _ T (Index j) N). replace (shift_slot (Index i) (Index j)) with (Index (if j <? i then j else Datatypes.S j)) by (cbn [shift_slot]; destruct (j <? i); reflexivity).
      destruct (child h c (Index (if j <? i then j else Datatypes.S j))) as [m|] eqn:Ch; [|reflexivity].
      apply (det_below h h' root cp c (Index i) n C R U A K T _ _ _ Ch).
    + intros q N. exact (det_frame h h' root cp c (Index i) n C R U A K T q N).
Qed.

Theorem move_ok h root from to h1 n h' : document h root -> proper h root from = true -> remove h root from = Ok (h1, inl n) ->
  proper h1 root to = true -> move h root from to = Ok (h', Success) ->
  document h' root /\ find_node h root from = Ok (inl n) /\ find_node h' root to = Ok (inl n) /\
  (forall r, at_path h' n r = at_path h n r) /\ (forall l, nth_error h l = nth_error h' l \/ container h l) /\
  forall ptr', ~ below (route h1 root to) (route h1 root ptr') -> read h' root ptr' = read h1 root ptr'.
Proof.
  intros D Pf E Pt M. pose proof D as (C & R & U). unfold move in M. rewrite E in M. cbn [rbind] in M. unfold set_node in M.
  destruct (find_container h1 root to) as [[[c s]|e]|] eqn:Fc; cbn [rbind] in M; try discriminate.
  2:{ injection M as _ ->. destruct (container_code h1 root to Fc). }
  destruct (attach h1 c s n) as [h2|] eqn:At; cbn [rbind] in M; [|discriminate]. injection M as ->.
  destruct (remove_paths h root from h1 n D E) as (cp & c0 & s0 & A & K & T & Q). destruct (Q Pf) as [_ Fn].
  assert (D1 : document h1 root) by (eapply det_document; eassumption).
  destruct (det_n h h1 root cp c0 s0 n C R U A K T) as (Ln & Un & Ap & An).
  destruct (set_core h1 root to n c s h' D1 Ln Un Ap Fc Pt At) as (D2 & F2 & A2 & O2 & R2).
  split; [exact D2|]. split; [exact Fn|]. split; [exact F2|]. split; [intros r; rewrite A2; apply An|]. split.
  - intros l. pose proof (det_kind _ _ _ _ _ T l) as X. specialize (O2 l). unfold container in *. destruct (nth_error h l) as [[]|]; auto; rewrite X in O2; destruct O2; auto; contradiction.
  - intros ptr' N. apply (R2 ptr' N).
Qed.

(** ** Copying *)
Theorem copy_set h root from to h' l x : document h root -> proper h root from = true -> find_node h root from = Ok (inl l) ->
  nth_error h l = Some x -> (match x with Arr (_ :: _) => False | _ => True end) -> copy h root from to = Ok (h', Success) ->
  set_new h root to x = Ok (h', Success).
Proof.
  intros D P F N X M. unfold copy in M.
  destruct (find_container h root from) as [[[c s]|e]|] eqn:Fc; cbn [rbind] in M; try discriminate.
  2:{ injection M as _ ->. destruct (container_code h root from Fc). }
  destruct (container_spec h root from c s Fc) as (cp & key & S & Fcc & Fit & K & Sl). specialize (Sl P).
  assert (Ch : child h c s = Some l).
  { unfold find_node in F. rewrite (raw_keys_split from cp key S), find_app in F. unfold find_node in Fcc. rewrite Fcc in F. cbn [rbind] in F.
    rewrite find_cons in F. destruct (key_step h c key) as [[m|e]|] eqn:St; cbn in F; try discriminate. injection F as ->.
    destruct (step_slot h c key l St) as (s' & E1 & E2). congruence. }
  unfold child in Ch. rewrite Ch in M. unfold deep_copy in M. rewrite N in M.
  assert (M' : set_node (h ++ [x]) root to (length h) = Ok (h', Success)).
  { destruct x as [fs|[|]|v|]; try contradiction; exact M. }
  unfold set_node in M'. destruct (grow_container h root x to D) as [G _]. rewrite G in M'.
  unfold set_new. destruct (find_container h root to) as [[[c' s']|e]|] eqn:Ft; cbn [rbind] in *; try discriminate.
  - exact M'.
  - injection M' as _ ->. destruct (container_code h root to Ft).
Qed.

Theorem changes_elsewhere root t h h' : changes root t h h' -> document h root ->
  document h' root /\ forall ptr, ~ below t (route h root ptr) -> read h' root ptr = read h root ptr /\ route h' root ptr = route h root ptr.
Proof.
  induction 1 as [h|h h1 h2 ptr x Ch IH X P B E]; intros D; [split; [exact D|split; reflexivity]|].
  destruct (IH D) as [D1 R1]. destruct (set_new_ok h1 root ptr x h2 D1 P) as (D2 & _ & _ & _ & R2); [|exact E|].
  { destruct x as [[|]|[|]|v|]; try contradiction; cbn; auto; [discriminate|intros [|i]; discriminate]. }
  split; [exact D2|]. intros ptr' N. destruct (R1 ptr' N) as [Ra Rb]. destruct (R2 ptr') as [Rc Rd].
  { intros (r & Z). apply N. destruct B as (r' & B). rewrite <- Rb, Z, B, <- app_assoc. eexists. reflexivity. }
  split; congruence.
Qed.

(** ** Updating *)
Lemma leaf_read h root ptr : leaf_at h root ptr = do s <- read h root ptr; Ok (match s with Value v => Some v | _ => None end).
Proof.
  unfold leaf_at, read. destruct (find_node h root ptr) as [[l|e]|]; cbn; try reflexivity. destruct (nth_error h l) as [[]|]; reflexivity.
Qed.

Lemma set_if_ok h root ptr x ch : document h root -> proper h root ptr = true -> (exists h1, set_new h root ptr (Leaf x) = Ok (h1, Success)) ->
  exists h', set_if ch h root ptr x = Ok (h', ch) /\ (ch = true -> read h' root ptr = Ok (Value x)) /\ (ch = false -> h' = h) /\
    forall ptr', ~ below (route h root ptr) (route h root ptr') -> read h' root ptr' = read h root ptr'.
Proof.
  intros D P (h1 & S). unfold set_if. destruct ch.
  - rewrite S. cbn. exists h1. destruct (set_new_ok h root ptr (Leaf x) h1 D P Logic.I S) as (_ & F & _ & N & R).
    split; [reflexivity|]. split; [|split; [discriminate|intros ptr' B; apply (R ptr' B)]].
    intros _. unfold read. rewrite F. cbn. rewrite N. reflexivity.
  - exists h. split; [reflexivity|]. split; [discriminate|]. split; reflexivity.
Qed.
Theorem update_ok h root ptr v old : document h root -> proper h root ptr = true ->
  (match v with DInt k z => TapeModel.fits k z = true | _ => True end) ->
  read h root ptr = Ok old -> updatable old v = true -> (exists h1, set_new h root ptr (Leaf (stored v)) = Ok (h1, Success)) ->
  exists h' new, update h root ptr v = Ok (h', negb (same_shown old v)) /\ read h' root ptr = Ok new /\ same_shown new v = true /\
    forall ptr', ~ below (route h root ptr) (route h root ptr') -> read h' root ptr' = read h root ptr'.
Proof.
  intros D P Wf Rd Up St.
  assert (Main : forall ch, ch = negb (same_shown old v) -> update h root ptr v = set_if ch h root ptr (stored v) -> same_shown (Value (stored v)) v = true ->
    exists h' new, update h root ptr v = Ok (h', negb (same_shown old v)) /\ read h' root ptr = Ok new /\ same_shown new v = true /\
    forall ptr', ~ below (route h root ptr) (route h root ptr') -> read h' root ptr' = read h root ptr').
  { intros ch Ec Eu Sv. destruct (set_if_ok h root ptr (stored v) ch D P St) as (h' & E1 & E2 & E3 & E4).
    exists h'. rewrite Eu, <- Ec. destruct ch.
    - exists (Value (stored v)). split; [exact E1|]. split; [auto|]. split; [exact Sv|exact E4].
    - exists old. split; [exact E1|]. rewrite (E3 eq_refl). split; [exact Rd|]. split; [|reflexivity]. destruct (same_shown old v); [reflexivity|discriminate]. }
  destruct v as [|b|k z|s|]; unfold updatable in Up; cbn [stored] in Up; try (destruct old as [|[]| | |]; discriminate Up).
  - apply (Main (negb (same_shown old (DBool b)))); [reflexivity| |destruct b; reflexivity].
    unfold update, get_as_bool. rewrite leaf_read, Rd. destruct old as [|[|b'| | |]| | |]; try discriminate Up; cbn; [|reflexivity].
    destruct b; [reflexivity|discriminate Up].
  - apply (Main (negb (same_shown old (DInt k z)))); [reflexivity| |cbn; apply Z.eqb_refl].
    unfold update, stored. set (t := match k with TapeModel.I128 => TapeModel.I128 | _ => if TapeModel.signed k then TapeModel.I64 else TapeModel.U64 end) in *.
    assert (Ft : TapeModel.fits t z = true).
    { clear - Wf. unfold TapeModel.fits, TapeModel.imin, TapeModel.imax in *. apply andb_true_iff in Wf as [A B]. apply Z.leb_le in A, B.
      apply andb_true_iff. destruct k; cbn in *; split; apply Z.leb_le; lia. }
    rewrite (read_as_fits t k z Ft). cbn [rbind]. unfold get_as_int. rewrite leaf_read, Rd.
    destruct old as [|[| |k' z'| |]| | |]; try discriminate Up; cbn [rbind].
    + rewrite (Z.eqb_sym 0 z). cbn [same_shown negb]. rewrite Up. reflexivity.
    + rewrite (read_as_fits t k' z' Up). reflexivity.
  - apply (Main (negb (same_shown old (DStr s)))); [reflexivity| |cbn; apply beqb_refl].
    unfold update, get_as_string. rewrite leaf_read, Rd. destruct old as [|[| | |s'|]| | |]; try discriminate Up; cbn; [|reflexivity].
    destruct s; [discriminate Up|reflexivity].
Qed.

Lemma set_succeeds h root ptr x cp key c s : container_split ptr = Ok (cp, key) -> find_node h root cp = Ok (inl c) ->
  slot_of h c key = Some s -> exists h', set_new h root ptr x = Ok (h', Success).
Proof.
  intros S F Sl. unfold container_split in S. unfold set_new, find_container.
  set (pos := match find_last slash ptr with Some i => i | None => O end) in *.
  destruct (nth_error ptr pos) as [b|] eqn:Nb; [|discriminate]. injection S as E1 E2. rewrite E1, F. cbn [rbind]. rewrite E2.
  unfold slot_of in Sl. assert (Lt : forall y, nth_error h c = Some y -> nth_error (h ++ [x]) c = Some y).
  { intros y Y. rewrite nth_error_app1; [exact Y|]. apply nth_error_Some. congruence. }
  destruct (nth_error h c) as [[fs|ls|v|]|] eqn:N; try discriminate.
  - destruct (unescape_key key) as [[name|]|]; try discriminate. cbn [rbind]. unfold attach. rewrite (Lt _ eq_refl). eexists. reflexivity.
  - destruct (atol key) as [i|]; [|discriminate]. cbn [rbind]. destruct (Z.ltb i 0); [discriminate|]. cbn [rbind]. unfold attach.
    rewrite (Lt _ eq_refl). eexists. reflexivity.
Qed.
Lemma empty_document : document [Obj []] 0.
Proof.
  split; [|split; [cbn; lia|]].
  - intros [|[|l]] [k|i] l'; cbn; discriminate.
  - intros p q l A B _. assert (N : forall s, child [Obj []] 0 s = None) by (intros [k|i]; reflexivity).
    destruct p as [|s p]; [|cbn [at_path] in A; rewrite N in A; discriminate]. destruct q as [|s q]; [reflexivity|cbn [at_path] in B; rewrite N in B; discriminate].
Qed.
Lemma built h : changes 0 [] [Obj []] h -> document h 0.
Proof. intros C. apply (changes_elsewhere 0 [] _ _ C empty_document). Qed.

Lemma set_read h root ptr x h' : document h root -> proper h root ptr = true ->
  (match x with Obj [] | Arr [] | Leaf _ | Deleter => True | _ => False end) ->
  set_new h root ptr x = Ok (h', Success) ->
  document h' root /\
  read h' root ptr = Ok (match x with Obj _ => Object (length h) | Arr _ => Array (length h) | Leaf v => Value v | Deleter => Removed end) /\
  (forall r, r <> [] -> at_path h' (length h) r = None) /\
  forall ptr', ~ below (route h root ptr) (route h root ptr') -> read h' root ptr' = read h root ptr'.
Proof.
  intros D P X E. destruct (set_new_ok h root ptr x h' D P) as (D2 & F & A & N & R); [|exact E|].
  { destruct x as [[|]|[|]|v|]; try contradiction; cbn; auto; [discriminate|intros [|i]; discriminate]. }
  split; [exact D2|]. split; [unfold read; rewrite F; cbn [rbind]; rewrite N; destruct x; reflexivity|]. split; [|intros ptr' B; apply (R ptr' B)].
  intros r Nr. rewrite A. destruct r as [|s r]; [contradiction|]. cbn [at_path].
  assert (child (h ++ [x]) (length h) s = None) as ->; [|reflexivity].
  unfold child. rewrite nth_error_app2, Nat.sub_diag by lia. cbn [nth_error].
  destruct x as [[|]|[|]|v|]; try contradiction; destruct s as [k|[|i]]; reflexivity.
Qed.
Lemma copy_ok h root from to h' l x : document h root -> proper h root from = true -> proper h root to = true ->
  find_node h root from = Ok (inl l) -> nth_error h l = Some x -> flat h x -> (match x with Arr (_ :: _) => False | _ => True end) ->
  copy h root from to = Ok (h', Success) ->
  (exists m, find_node h' root to = Ok (inl m) /\ nth_error h' m = Some x) /\
  (forall ptr, ~ below (route h root to) (route h root ptr) -> read h' root ptr = read h root ptr) /\
  forall h'', changes root (route h root to) h' h'' ->
    forall ptr, ~ below (route h root to) (route h root ptr) -> read h'' root ptr = read h root ptr.
Proof.
  intros D Pf Pt F N Fl X E. pose proof (copy_set h root from to h' l x D Pf F N X E) as S.
  destruct (set_new_ok h root to x h' D Pt Fl S) as (D2 & F2 & A2 & N2 & R2).
  split; [eauto|]. split; [intros ptr B; apply (R2 ptr B)|]. intros h'' Ch ptr B.
  destruct (R2 ptr B) as [Ra Rb]. destruct (changes_elsewhere _ _ _ _ Ch D2) as [_ R3].
  destruct (R3 ptr) as [Rc _]; [rewrite Rb; exact B|]. congruence.
Qed.
