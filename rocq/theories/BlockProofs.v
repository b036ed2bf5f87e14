(** Proofs about blocks of the B+tree. *)
From Verif Require Import Bytes Outcome PhysModel PhysSpec PhysProofs BlockModel BlockSpec.
From Coq Require Import ZArith Sorting.Permutation Sorting.Sorted Lia.

(** * Binary search *)
Definition partitioned {A} (c : A -> bool) (l : list A) (n : nat) : Prop :=
  n <= length l /\ (forall i x, nth_error l i = Some x -> c x = (i <? n)).

Lemma lower_bound_spec {A} (c : A -> bool) l n : partitioned c l n ->
  forall fuel first len, len < fuel -> first <= n -> n <= first + len -> first + len <= length l ->
  lower_bound fuel c l first len = n.
Proof.
  intros [Hn H] fuel. induction fuel as [|f IH]; intros first len Hf H1 H2 H3; [lia|].
  cbn [lower_bound]. destruct len as [|len']; [lia|].
  assert (Hd : Nat.div2 (S len') <= len') by (rewrite Nat.div2_div; apply Nat.lt_succ_r, Nat.div_lt; lia).
  set (half := Nat.div2 (S len')) in *.
  destruct (nth_error l (first + half)) as [x|] eqn:E.
  - rewrite (H _ _ E). destruct (Nat.ltb_spec (first + half) n).
    + apply IH; lia.
    + apply IH; lia.
  - apply nth_error_None in E. lia.
Qed.

Lemma lower_bound_in_spec {A} (c : A -> bool) l n first : partitioned c l n -> first <= n ->
  lower_bound_in c l first = n.
Proof.
  intros H Hf. unfold lower_bound_in. apply lower_bound_spec; trivial; destruct H; lia.
Qed.

Lemma partitioned_app {A} (c : A -> bool) l1 l2 : Forall (fun x => c x = true) l1 -> Forall (fun x => c x = false) l2 ->
  partitioned c (l1 ++ l2) (length l1).
Proof.
  intros H1 H2. split; [rewrite app_length; lia|].
  intros i x E. destruct (Nat.ltb_spec i (length l1)) as [L|L].
  - rewrite nth_error_app1 in E by lia. apply nth_error_In in E. rewrite Forall_forall in H1. auto.
  - rewrite nth_error_app2 in E by lia. apply nth_error_In in E. rewrite Forall_forall in H2. auto.
Qed.

(** * Keys *)
Lemma equal_sym a b : equal a b = equal b a.
Proof. unfold equal, greater. apply andb_comm. Qed.

Lemma equal_refl k : equal k k = true.
Proof. apply equal_spec. rewrite !less_irrefl. auto. Qed.

Section Keys.
  Variable r : regime.
  Notation ok := (exact r).

  Lemma less_trans a b c : ok a -> ok b -> ok c -> less a b = true -> less b c = true -> less a c = true.
  Proof. intros; eapply (swo_trans _ _ _ (exact_order r)); [| | | eassumption |]; trivial. Qed.
  Lemma equal_trans a b c : ok a -> ok b -> ok c -> equal a b = true -> equal b c = true -> equal a c = true.
  Proof. intros; eapply (swo_equiv _ _ _ (exact_order r)); [| | | eassumption |]; trivial. Qed.
  Lemma less_asym a b : ok a -> ok b -> less a b = true -> less b a = false.
  Proof.
    intros Ha Hb H. destruct (less b a) eqn:E; trivial.
    pose proof (less_trans a b a Ha Hb Ha H E) as C. rewrite less_irrefl in C. discriminate C.
  Qed.
  (** Not below is transitive. *)
  Lemma le_trans a b c : ok a -> ok b -> ok c -> less a b = false -> less b c = false -> less a c = false.
  Proof.
    intros Ha Hb Hc H1 H2. destruct (less a c) eqn:E; trivial. exfalso.
    destruct (less b a) eqn:E1.
    { rewrite (less_trans b a c Hb Ha Hc E1 E) in H2. discriminate H2. }
    destruct (less c b) eqn:E2.
    { rewrite (less_trans a c b Ha Hc Hb E E2) in H1. discriminate H1. }
    assert (A : equal a b = true) by (apply equal_spec; auto).
    assert (B : equal b c = true) by (apply equal_spec; auto).
    pose proof (equal_trans a b c Ha Hb Hc A B) as C. apply equal_spec in C. destruct C as [C _].
    rewrite C in E. discriminate E.
  Qed.
  Lemma less_le a b c : ok a -> ok b -> ok c -> less a b = true -> less c b = false -> less a c = true.
  Proof.
    intros Ha Hb Hc H1 H2. destruct (less a c) eqn:E; trivial.
    rewrite (le_trans a c b Ha Hc Hb E H2) in H1. discriminate H1.
  Qed.
  Lemma le_less a b c : ok a -> ok b -> ok c -> less b a = false -> less b c = true -> less a c = true.
  Proof.
    intros Ha Hb Hc H1 H2. destruct (less a c) eqn:E; trivial.
    rewrite (le_trans b a c Hb Ha Hc H1 E) in H2. discriminate H2.
  Qed.
  Lemma equal_less_l a b c : ok a -> ok b -> ok c -> equal a b = true -> less a c = less b c.
  Proof.
    intros Ha Hb Hc E. apply equal_spec in E. destruct E as [E1 E2].
    destruct (less a c) eqn:A, (less b c) eqn:B; trivial.
    - rewrite (le_less b a c Hb Ha Hc E1 A) in B. discriminate B.
    - rewrite (le_less a b c Ha Hb Hc E2 B) in A. discriminate A.
  Qed.
  Lemma equal_less_r a b c : ok a -> ok b -> ok c -> equal a b = true -> less c a = less c b.
  Proof.
    intros Ha Hb Hc E. apply equal_spec in E. destruct E as [E1 E2].
    destruct (less c a) eqn:A, (less c b) eqn:B; trivial.
    - rewrite (less_le c a b Hc Ha Hb A E2) in B. discriminate B.
    - rewrite (less_le c b a Hc Hb Ha B E1) in A. discriminate A.
  Qed.
  Lemma equal_equal a b c : ok a -> ok b -> ok c -> equal a b = true -> equal a c = equal b c.
  Proof.
    intros Ha Hb Hc E. unfold equal, greater.
    rewrite (equal_less_l a b c), (equal_less_r a b c); trivial.
  Qed.
End Keys.

(** * The range of a key *)
Notation keys_ok r := (Forall (fun m => exact r (mkey m))).
Notation desc := (StronglySorted (fun m m' => less (mkey m) (mkey m') = false)).

Lemma desc_cons_inv m l : desc (m :: l) -> desc l /\ Forall (fun m' => less (mkey m) (mkey m') = false) l.
Proof. intros H. inversion H; auto. Qed.

Lemma desc_app l1 l2 : desc (l1 ++ l2) <->
  desc l1 /\ desc l2 /\ (forall m m', In m l1 -> In m' l2 -> less (mkey m) (mkey m') = false).
Proof.
  induction l1 as [|m l1 IH]; cbn [app].
  - split; [intros H; split; [constructor|split; [exact H|intros ? ? []]]|intros (_ & H & _); exact H].
  - split.
    + intros H. apply desc_cons_inv in H. destruct H as [H F]. apply IH in H. destruct H as (H1 & H2 & H3).
      rewrite Forall_app in F. destruct F as [F1 F2]. split; [constructor; trivial|]. split; trivial.
      intros a a' [<-|I] I'; [rewrite Forall_forall in F2; auto|auto].
    + intros (H1 & H2 & H3). apply desc_cons_inv in H1. destruct H1 as [H1 F].
      constructor.
      * apply IH. split; trivial. split; trivial. intros; apply H3; [right|]; trivial.
      * rewrite Forall_app. split; trivial. rewrite Forall_forall. intros; apply H3; [left|]; trivial.
Qed.

(** Metadata with greater, equal and smaller keys. *)
Definition parts (k : pval) (l A B C : list meta) : Prop :=
  l = A ++ B ++ C /\ Forall (fun m => less k (mkey m) = true) A /\ Forall (fun m => equal k (mkey m) = true) B /\
  Forall (fun m => less (mkey m) k = true) C.

Lemma parts_exist r k l : exact r k -> keys_ok r l -> desc l -> exists A B C, parts k l A B C.
Proof.
  intros Hk Hl. induction l as [|m l IH]; intros Hs.
  - exists [], [], []. repeat split; constructor.
  - inversion_clear Hl as [|? ? Hm Hl']. apply desc_cons_inv in Hs. destruct Hs as [Hs F].
    destruct (IH Hl' Hs) as (A & B & C & E & HA & HB & HC). clear IH.
    rewrite Forall_forall in F. rewrite Forall_forall in Hl'.
    destruct (less k (mkey m)) eqn:E1.
    { exists (m :: A), B, C. subst l. repeat split; trivial. constructor; trivial. }
    destruct A as [|a A].
    2:{ exfalso. inversion_clear HA as [|? ? Ha HA']. assert (I : In a l) by (subst l; left; reflexivity).
        rewrite (le_trans r k (mkey m) (mkey a)) in Ha; trivial; try discriminate Ha; auto. }
    destruct (less (mkey m) k) eqn:E2.
    2:{ exists [], (m :: B), C. subst l. repeat split; trivial. constructor; trivial. apply equal_spec; auto. }
    destruct B as [|x B].
    2:{ exfalso. inversion_clear HB as [|? ? Hx HB']. pose proof Hx as Hx'. assert (I : In x l) by (subst l; left; reflexivity).
        apply equal_spec in Hx. destruct Hx as [Hx _].
        pose proof (less_le r (mkey m) k (mkey x) Hm Hk (Hl' x I) E2) as Q.
        rewrite (F x I) in Q. destruct (less (mkey x) k) eqn:E3; [|discriminate (Q eq_refl)].
        apply equal_spec in Hx'. destruct Hx' as [_ Hx']. congruence. }
    exists [], [], (m :: C). subst l. repeat split; trivial. constructor; trivial.
Qed.

Lemma find_index_range_parts r b k A B C : exact r k -> keys_ok r (bmeta b) -> parts k (bmeta b) A B C ->
  find_index_range b k = (length A, length A + length B).
Proof.
  intros Hk Hl (E & HA & HB & HC). unfold find_index_range.
  assert (EA : lower_bound_in (fun m => greater (mkey m) k) (bmeta b) 0 = length A).
  { apply lower_bound_in_spec; [|lia]. rewrite E. apply partitioned_app.
    - unfold greater. exact HA.
    - unfold greater. rewrite Forall_app. split.
      + eapply Forall_impl; [|exact HB]. cbn. intros m H. apply equal_spec in H. tauto.
      + rewrite E in Hl. rewrite !Forall_app in Hl. destruct Hl as (_ & _ & Hl).
        rewrite Forall_forall in HC, Hl |- *. intros m I. apply (less_asym r); auto. }
  rewrite EA. f_equal.
  apply lower_bound_in_spec; [|lia].
  rewrite E, app_assoc, <- app_length. apply partitioned_app.
  - unfold greater_equal. rewrite Forall_app. split.
    + rewrite E in Hl. rewrite !Forall_app in Hl. destruct Hl as (Hl & _ & _).
      rewrite Forall_forall in HA, Hl |- *. intros m I. rewrite (less_asym r k (mkey m)); auto.
    + eapply Forall_impl; [|exact HB]. cbn. intros m H. apply equal_spec in H. destruct H as [_ H]. rewrite H. reflexivity.
  - unfold greater_equal. eapply Forall_impl; [|exact HC]. cbn. intros m H. rewrite H. reflexivity.
Qed.

Lemma slice_app {A} (a b c : list A) : slice (length a) (length a + length b) (a ++ b ++ c) = b.
Proof.
  unfold slice. rewrite skipn_app, skipn_all, Nat.sub_diag. cbn [skipn app].
  replace (length a + length b - length a) with (length b) by lia.
  rewrite firstn_app, firstn_all, Nat.sub_diag. cbn [firstn]. apply app_nil_r.
Qed.
Lemma firstn_length_app {A} (a b : list A) : firstn (length a) (a ++ b) = a.
Proof. rewrite firstn_app, firstn_all, Nat.sub_diag. cbn. apply app_nil_r. Qed.
Lemma skipn_length_app {A} (a b : list A) : skipn (length a) (a ++ b) = b.
Proof. rewrite skipn_app, skipn_all, Nat.sub_diag. reflexivity. Qed.

(** * Bytes *)
Lemma laid_app off l1 l2 : laid off (l1 ++ l2) <-> laid off l1 /\ laid (off + length (concat (map snd l1))) l2.
Proof.
  revert off. induction l1 as [|[m d] l1 IH]; intros off; cbn [app laid map concat].
  - rewrite Nat.add_0_r. tauto.
  - rewrite IH. cbn [snd]. rewrite app_length, Nat.add_assoc. tauto.
Qed.

Lemma laid_size off cl : laid off cl -> list_sum (map msize (map fst cl)) = length (concat (map snd cl)).
Proof.
  revert off. induction cl as [|[m d] cl IH]; intros off H; [reflexivity|].
  cbn in H. destruct H as (_ & E & _ & H). cbn [map concat fst snd]. rewrite app_length, <- (IH _ H), <- E. reflexivity.
Qed.

Lemma bytes_at_app a d c off : off = 16 + length a -> bytes_at (a ++ d ++ c) off (length d) = d.
Proof.
  intros ->. unfold bytes_at, header_size. replace (16 + length a - 16) with (length a) by lia.
  rewrite skipn_length_app. apply firstn_length_app.
Qed.

(** The bytes of an entry of the layout. *)
Lemma laid_read cl m d D : laid 16 cl -> D = concat (map snd cl) -> In (m, d) cl -> bytes_at D (moff m) (msize m) = d.
Proof.
  intros L -> I. apply in_split in I. destruct I as (l1 & l2 & ->).
  apply laid_app in L. destruct L as [_ L]. cbn in L. destruct L as (L1 & L2 & _ & _).
  rewrite map_app, concat_app. cbn [map concat snd]. rewrite L2. apply bytes_at_app. rewrite L1. reflexivity.
Qed.

Lemma laid_read_ext cl m d D E : laid 16 cl -> D = concat (map snd cl) -> In (m, d) cl ->
  bytes_at (D ++ E) (moff m) (msize m) = d.
Proof.
  intros L -> I. apply in_split in I. destruct I as (l1 & l2 & ->).
  apply laid_app in L. destruct L as [_ L]. cbn in L. destruct L as (L1 & L2 & _ & _).
  rewrite map_app, concat_app. cbn [map concat snd]. rewrite L2, <- !app_assoc. apply bytes_at_app. rewrite L1. reflexivity.
Qed.

Lemma laid_off off cl m d : laid off cl -> In (m, d) cl -> off <= moff m /\ moff m + msize m <= off + length (concat (map snd cl)) /\ msize m = length d /\ d <> [].
Proof.
  intros L I. apply in_split in I. destruct I as (l1 & l2 & ->).
  apply laid_app in L. destruct L as [_ L]. cbn in L. destruct L as (L1 & L2 & L3 & _).
  rewrite map_app, concat_app. cbn [map concat snd]. rewrite !app_length. split; [lia|]. split; [lia|]. auto.
Qed.

(** Offsets in the layout are different. *)
Lemma laid_nodup off cl : laid off cl -> NoDup (map moff (map fst cl)).
Proof.
  revert off. induction cl as [|[m d] cl IH]; intros off L; cbn; [constructor|].
  cbn in L. destruct L as (L1 & L2 & L3 & L). constructor; [|eapply IH; eassumption].
  intros I. rewrite map_map in I. apply in_map_iff in I. destruct I as ([m' d'] & E & I). cbn in E.
  destruct (laid_off _ _ _ _ L I) as [Q _]. destruct d; [congruence|]. cbn in Q. lia.
Qed.

(** * Removing part of the layout *)
Notation kept kp := (filter (fun p : meta * list byte => kp (fst p))).

Definition moved (off : nat) (m : meta) : meta := {| moff := off; msize := msize m; mkey := mkey m |}.

(** [f] gives the metadata their places after the others are gone. *)
Definition relocates (kp : meta -> bool) (f : meta -> meta) (base : nat) (cl : list (meta * list byte)) : Prop :=
  forall l1 m d l2, cl = l1 ++ (m, d) :: l2 -> kp m = true -> f m = moved (base + length (concat (map snd (kept kp l1)))) m.

Lemma relaid kp f cl : forall off base, laid off cl -> relocates kp f base cl ->
  laid base (map (fun p : meta * list byte => (f (fst p), snd p)) (kept kp cl)).
Proof.
  induction cl as [|[m d] cl IH]; intros off base L R; [constructor|].
  cbn [laid] in L. destruct L as (L1 & L2 & L3 & L). cbn [filter fst].
  destruct (kp m) eqn:E.
  - cbn [map laid fst snd]. pose proof (R [] m d cl eq_refl E) as Q. cbn in Q. rewrite Nat.add_0_r in Q. rewrite Q.
    cbn [moff msize moved]. split; [reflexivity|]. split; [exact L2|]. split; [exact L3|].
    eapply IH; [exact L|]. intros l1 m' d' l2 -> E'.
    rewrite (R ((m, d) :: l1) m' d' l2 eq_refl E'). cbn [filter fst]. rewrite E. cbn [map concat snd].
    rewrite app_length, Nat.add_assoc. reflexivity.
  - eapply IH; [exact L|]. intros l1 m' d' l2 -> E'.
    rewrite (R ((m, d) :: l1) m' d' l2 eq_refl E'). cbn [filter fst]. rewrite E. reflexivity.
Qed.

Lemma map_fst_kept kp cl : map fst (kept kp cl) = filter kp (map fst cl).
Proof.
  induction cl as [|[m d] cl IH]; [reflexivity|]. cbn. destruct (kp m); cbn; rewrite IH; reflexivity.
Qed.

Lemma Permutation_filter {A} (f : A -> bool) l l' : Permutation l l' -> Permutation (filter f l) (filter f l').
Proof.
  induction 1; cbn.
  - constructor.
  - destruct (f x); [constructor|]; trivial.
  - destruct (f y), (f x); try reflexivity. apply perm_swap.
  - etransitivity; eassumption.
Qed.

Lemma laid_in (cl : list (meta * list byte)) b m : Permutation (map fst cl) (bmeta b) -> In m (bmeta b) -> exists d, In (m, d) cl.
Proof.
  intros P I. apply (Permutation_in _ (Permutation_sym P)) in I. apply in_map_iff in I.
  destruct I as ([m' d] & <- & I). exists d. exact I.
Qed.

(** The effect of a removal on the layout and on the items. *)
Lemma shrink b b' kp f cl :
  Permutation (map fst cl) (bmeta b) -> laid 16 cl -> bdata b = concat (map snd cl) -> relocates kp f 16 cl ->
  bmeta b' = map f (filter kp (bmeta b)) -> bdata b' = concat (map snd (kept kp cl)) ->
  (exists cl', Permutation (map fst cl') (bmeta b') /\ laid 16 cl' /\ bdata b' = concat (map snd cl')) /\
  items b' = map (fun m => (mkey m, read b m)) (filter kp (bmeta b)) /\
  map mkey (bmeta b') = map mkey (filter kp (bmeta b)) /\
  map msize (bmeta b') = map msize (filter kp (bmeta b)).
Proof.
  intros P L D R M D'.
  pose proof (relaid kp f cl 16 16 L R) as L'.
  set (cl' := map (fun p : meta * list byte => (f (fst p), snd p)) (kept kp cl)) in *.
  assert (DD : bdata b' = concat (map snd cl')).
  { rewrite D'. unfold cl'. rewrite map_map. reflexivity. }
  assert (FF : forall m, In m (filter kp (bmeta b)) -> mkey (f m) = mkey m /\ msize (f m) = msize m /\ read b' (f m) = read b m).
  { intros m I. apply filter_In in I. destruct I as [I K].
    destruct (laid_in cl b m P I) as [d Id].
    assert (Q : In (f m, d) cl').
    { unfold cl'. apply in_map_iff. exists (m, d). split; [reflexivity|]. apply filter_In. split; trivial. }
    pose proof (in_split _ _ Id) as (l1 & l2 & E). pose proof (R _ _ _ _ E K) as Rm.
    split; [rewrite Rm; reflexivity|]. split; [rewrite Rm; reflexivity|].
    unfold read. rewrite (laid_read cl' (f m) d (bdata b') L' DD Q), (laid_read cl m d (bdata b) L D Id). reflexivity. }
  split; [|split; [|split]].
  - exists cl'. split; [|split; trivial]. rewrite M. unfold cl'. rewrite map_map. cbn [fst].
    rewrite <- (map_map fst f). apply Permutation_map. rewrite map_fst_kept. apply Permutation_filter, P.
  - unfold items. rewrite M, map_map. apply map_ext_in. intros m I. destruct (FF m I) as (-> & _ & ->). reflexivity.
  - rewrite M, map_map. apply map_ext_in. intros m I. apply (FF m I).
  - rewrite M, map_map. apply map_ext_in. intros m I. apply (FF m I).
Qed.

(** ** Removing one item *)
Lemma relocates_one cl m0 d0 : laid 16 cl -> In (m0, d0) cl ->
  relocates (fun m => negb (moff m =? moff m0)) (shift_after (moff m0) (msize m0)) 16 cl.
Proof.
  intros L I. apply in_split in I. destruct I as (a & c & ->).
  pose proof (laid_nodup _ _ L) as ND.
  intros l1 m d l2 E K.
  apply laid_app in L. destruct L as [La L]. cbn [laid] in L. destruct L as (L1 & L2 & L3 & Lc).
  assert (KA : forall base l, laid base l -> base + length (concat (map snd l)) <= moff m0 ->
           kept (fun m => negb (moff m =? moff m0)) l = l).
  { clear. intros base l. revert base. induction l as [|[m d] l IH]; intros base L H; [reflexivity|].
    cbn [laid] in L. destruct L as (L1 & L2 & L3 & L). cbn [map concat snd] in H. rewrite app_length in H.
    cbn [filter fst]. destruct d; [congruence|]. cbn [length] in *.
    destruct (Nat.eqb_spec (moff m) (moff m0)); [lia|]. cbn [negb]. f_equal. apply (IH (base + S (length d))); [exact L|lia]. }
  assert (KC : forall base l, laid base l -> moff m0 < base -> kept (fun m => negb (moff m =? moff m0)) l = l).
  { clear. intros base l. revert base. induction l as [|[m d] l IH]; intros base L H; [reflexivity|].
    cbn [laid] in L. destruct L as (L1 & L2 & L3 & L).
    cbn [filter fst]. destruct (Nat.eqb_spec (moff m) (moff m0)); [lia|]. cbn [negb]. f_equal. apply (IH (base + length d)); [exact L|lia]. }
  destruct (le_lt_dec (length l1) (length a)) as [Q|Q].
  - (* not after *)
    destruct (Nat.eq_dec (length l1) (length a)) as [Q'|Q'].
    { exfalso. assert (X : nth_error (l1 ++ (m, d) :: l2) (length l1) = Some (m, d)).
      { rewrite nth_error_app2, Nat.sub_diag by lia. reflexivity. }
      rewrite <- E, Q', nth_error_app2, Nat.sub_diag in X by lia. cbn in X. injection X as <- <-.
      rewrite Nat.eqb_refl in K. discriminate K. }
    assert (S : exists t, a = l1 ++ (m, d) :: t).
    { assert (X : firstn (length a) (a ++ (m0, d0) :: c) = firstn (length a) (l1 ++ (m, d) :: l2)) by (rewrite E; reflexivity).
      rewrite firstn_length_app, firstn_app, firstn_all2 in X by lia.
      destruct (length a - length l1) as [|n] eqn:Z; [lia|]. cbn [firstn] in X. exists (firstn n l2). exact X. }
    destruct S as [t ->]. clear E.
    pose proof La as La0.
    apply laid_app in La. destruct La as [Ll1 La]. cbn [laid] in La. destruct La as (A1 & A2 & A3 & A4).
    rewrite map_app, concat_app, app_length in L1. cbn [map concat snd] in L1. rewrite app_length in L1.
    unfold shift_after. destruct (Nat.ltb_spec (moff m0) (moff m)); [destruct d; [congruence|]; cbn [length] in *; lia|].
    unfold moved. rewrite (KA 16 l1 Ll1) by lia. destruct m; cbn in *. f_equal. lia.
  - assert (S : exists t, l1 = a ++ (m0, d0) :: t /\ c = t ++ (m, d) :: l2).
    { assert (X : firstn (length l1) (a ++ (m0, d0) :: c) = firstn (length l1) (l1 ++ (m, d) :: l2)) by (rewrite E; reflexivity).
      assert (Y : skipn (length l1) (a ++ (m0, d0) :: c) = skipn (length l1) (l1 ++ (m, d) :: l2)) by (rewrite E; reflexivity).
      rewrite firstn_length_app, firstn_app, firstn_all2 in X by lia.
      rewrite skipn_length_app, skipn_app, skipn_all2 in Y by lia.
      destruct (length l1 - length a) as [|n] eqn:Z; [lia|]. cbn [firstn skipn app] in X, Y.
      exists (firstn n c). split; [symmetry; exact X|]. rewrite <- Y. symmetry. apply firstn_skipn. }
    destruct S as (t & -> & ->). clear E.
    apply laid_app in Lc. destruct Lc as [Lt Lc]. cbn [laid] in Lc. destruct Lc as (C1 & C2 & C3 & C4).
    unfold shift_after. destruct (Nat.ltb_spec (moff m0) (moff m)); [|destruct d0; [congruence|]; cbn [length] in *; lia].
    rewrite filter_app. cbn [filter fst]. rewrite Nat.eqb_refl. cbn [negb].
    rewrite (KA 16 a La) by lia.
    rewrite (KC _ t Lt) by (destruct d0; [congruence|]; cbn [length] in *; lia).
    unfold moved. f_equal. rewrite map_app, concat_app, app_length. lia.
Qed.

(** ** Removing a range *)
(** The untouched spaces of a layout.  [Some (f, len)]: inside a space that started at [f] and has [len] bytes so far;
    [None]: behind a removed item.  Between two removed neighbours there may or may not be an empty space. *)
Inductive cover (gone : nat -> bool) : option (nat * nat) -> nat -> list (meta * list byte) -> list (nat * nat) -> Prop :=
| cover_nil f len o : cover gone (Some (f, len)) o [] [(f, len + 16)]
| cover_keep f len o m d r sp : gone o = false -> cover gone (Some (f, len + length d)) (o + length d) r sp ->
    cover gone (Some (f, len)) o ((m, d) :: r) sp
| cover_rem f len o m d r sp : gone o = true -> cover gone None (o + length d) r sp ->
    cover gone (Some (f, len)) o ((m, d) :: r) ((f, len) :: sp)
| cover_start o cl sp : cover gone (Some (o, 0)) o cl sp -> cover gone None o cl sp
| cover_skip o m d r sp : gone o = true -> cover gone None (o + length d) r sp -> cover gone None o ((m, d) :: r) sp.

Lemma cover_ext g g' st o cl sp : laid o cl -> (forall x, o <= x -> g x = g' x) -> cover g st o cl sp -> cover g' st o cl sp.
Proof.
  intros L H C. induction C; cbn [laid] in L.
  - constructor.
  - apply cover_keep; [rewrite <- H; trivial|]. apply IHC; [apply L|]. intros; apply H; lia.
  - apply cover_rem; [rewrite <- H; trivial|]. apply IHC; [apply L|]. intros; apply H; lia.
  - apply cover_start. auto.
  - apply cover_skip; [rewrite <- H; trivial|]. apply IHC; [apply L|]. intros; apply H; lia.
Qed.

Lemma nonempty_length {A} (d : list A) : d <> [] -> 0 < length d.
Proof. destruct d; [congruence|cbn; lia]. Qed.

Lemma cover_head g st o cl sp : cover g st o cl sp -> forall f len, st = Some (f, len) -> laid o cl ->
  exists e t, sp = (f, len + e) :: t /\ (forall f' len', cover g (Some (f', len')) o cl ((f', len' + e) :: t)) /\
    (e = 0 -> exists m d r, cl = (m, d) :: r /\ g o = true /\ cover g None (o + length d) r t).
Proof.
  induction 1 as [f0 len0 o|f0 len0 o m d r sp G C IH|f0 len0 o m d r sp G C IH|o cl sp C IH|o m d r sp G C IH];
    intros f len E L; try discriminate E; injection E as -> ->.
  - exists 16, []. split; [reflexivity|]. split; [intros; constructor|]. intros E; discriminate E.
  - cbn [laid] in L. destruct L as (L1 & L2 & L3 & L).
    destruct (IH _ _ eq_refl L) as (e & t & -> & H & _).
    exists (length d + e), t. split; [rewrite Nat.add_assoc; reflexivity|]. split.
    + intros f' len'. apply cover_keep; trivial. rewrite Nat.add_assoc. apply H.
    + pose proof (nonempty_length d L3). lia.
  - exists 0, sp. split; [rewrite Nat.add_0_r; reflexivity|]. split.
    + intros. rewrite Nat.add_0_r. apply cover_rem; trivial.
    + intros _. exists m, d, r. auto.
Qed.

(** Consecutive spaces do not touch. *)
Fixpoint apart (s : nat * nat) (sp : list (nat * nat)) : Prop :=
  match sp with [] => True | n :: r => fst s + snd s < fst n /\ apart n r end.

Lemma cover_apart g st o cl sp : cover g st o cl sp -> laid o cl ->
  match st with
  | Some (f, len) => f + len = o -> exists e t, sp = (f, len + e) :: t /\ apart (f, len + e) t /\
                                      Forall (fun s => o < fst s) t
  | None => exists n t, sp = n :: t /\ o <= fst n /\ apart n t /\ Forall (fun s => o < fst s) t
  end.
Proof.
  induction 1 as [f0 len0 o|f0 len0 o m d r sp G C IH|f0 len0 o m d r sp G C IH|o cl sp C IH|o m d r sp G C IH]; intros L.
  - intros E. exists 16, []. split; [reflexivity|]. split; [exact I|constructor].
  - cbn [laid] in L. destruct L as (L1 & L2 & L3 & L). pose proof (nonempty_length d L3).
    intros E. destruct (IH L) as (e & t & -> & H1 & H2); [lia|].
    exists (length d + e), t. rewrite Nat.add_assoc. split; [reflexivity|]. split; [exact H1|].
    eapply Forall_impl; [|exact H2]. cbn. intros; lia.
  - cbn [laid] in L. destruct L as (L1 & L2 & L3 & L). pose proof (nonempty_length d L3).
    intros E. destruct (IH L) as (n & t & -> & H1 & H2 & H3).
    exists 0, (n :: t). rewrite Nat.add_0_r. split; [reflexivity|]. split; [cbn; split; [lia|trivial]|].
    constructor; [lia|]. eapply Forall_impl; [|exact H3]. cbn. intros; lia.
  - destruct (IH L) as (e & t & -> & H1 & H2); [lia|].
    exists (o, 0 + e), t. repeat split; trivial.
  - cbn [laid] in L. destruct L as (L1 & L2 & L3 & L). pose proof (nonempty_length d L3).
    destruct (IH L) as (n & t & -> & H1 & H2 & H3).
    exists n, t. repeat split; trivial; [lia|]. eapply Forall_impl; [|exact H3]. cbn. intros; lia.
Qed.

Lemma cover_none_head g st o cl sp : cover g st o cl sp -> st = None -> laid o cl -> forall m d, In (m, d) cl -> g (moff m) = false ->
  exists n t, sp = n :: t /\ fst n <= moff m.
Proof.
  induction 1 as [f0 len0 o|f0 len0 o m0 d0 r sp G C IH|f0 len0 o m0 d0 r sp G C IH|o cl sp C IH|o m0 d0 r sp G C IH];
    intros E L m d I K; try discriminate E.
  - destruct (cover_head _ _ _ _ _ C _ _ eq_refl L) as (e & t & -> & _). exists (o, 0 + e), t. split; [reflexivity|].
    cbn [fst]. apply (laid_off _ _ _ _ L I).
  - cbn [laid] in L. destruct L as (L1 & L2 & L3 & L). destruct I as [I|I].
    + injection I as -> ->. congruence.
    + eapply IH; eauto.
Qed.

Lemma cut_cover g m d : g (moff m) = false -> forall st o cl sp, cover g st o cl sp -> laid o cl -> In (m, d) cl ->
  match st with Some (f, len) => f + len = o | None => True end ->
  cover (fun x => g x || (x =? moff m)) st o cl (cut sp (moff m) (length d)).
Proof.
  intros K st o cl sp C.
  induction C as [f0 len0 o|f0 len0 o m0 d0 r sp G C IH|f0 len0 o m0 d0 r sp G C IH|o cl sp C IH|o m0 d0 r sp G C IH];
    intros L I S.
  - destruct I.
  - cbn [laid] in L. destruct L as (L1 & L2 & L3 & L). pose proof (nonempty_length d0 L3) as N.
    destruct I as [I|I].
    + injection I as -> ->. subst o.
      destruct (cover_head _ _ _ _ _ C _ _ eq_refl L) as (e & t & Et & Hc & H0).
      destruct (cover_apart _ _ _ _ _ C L) as (e' & t' & Et' & _ & F); [lia|].
      rewrite Et in Et'. injection Et' as Ee <-. assert (e' = e) by lia. subst e' sp.
      assert (Q : cut ((f0, len0 + length d + e) :: t) (moff m) (length d) =
                  (f0, len0) :: (if e =? 0 then t else (moff m + length d, e) :: t)).
      { cbn [cut fst snd]. replace (len0 + length d + e + f0 - moff m - length d) with e by lia.
        replace (moff m - f0) with len0 by lia.
        destruct t as [|n t]; [reflexivity|]. inversion_clear F as [|? ? Hn _].
        destruct (Nat.ltb_spec (moff m) (fst n)); [reflexivity|lia]. }
      rewrite Q. apply cover_rem; [rewrite Nat.eqb_refl; apply orb_true_r|].
      assert (X : forall x, moff m + length d <= x -> g x = g x || (x =? moff m)).
      { intros x Hx. destruct (Nat.eqb_spec x (moff m)); [lia|]. symmetry. apply orb_false_r. }
      destruct (Nat.eqb_spec e 0) as [E|E].
      * destruct (H0 E) as (m2 & d2 & r2 & -> & G2 & C2).
        eapply cover_ext; [exact L|exact X|]. apply cover_skip; trivial.
      * eapply cover_ext; [exact L|exact X|]. apply cover_start. apply (Hc (moff m + length d) 0).
    + pose proof (laid_off _ _ _ _ L I) as (Q & _).
      apply cover_keep; [rewrite G; apply Nat.eqb_neq; lia|]. apply IH; trivial. lia.
  - cbn [laid] in L. destruct L as (L1 & L2 & L3 & L). pose proof (nonempty_length d0 L3) as N.
    destruct I as [I|I].
    { injection I as -> ->. congruence. }
    destruct (cover_none_head _ _ _ _ _ C eq_refl L _ _ I K) as (n & t & -> & Hn).
    assert (Q : cut ((f0, len0) :: n :: t) (moff m) (length d) = (f0, len0) :: cut (n :: t) (moff m) (length d)).
    { cbn [cut]. destruct (Nat.ltb_spec (moff m) (fst n)); [lia|reflexivity]. }
    rewrite Q. apply cover_rem; [rewrite G; reflexivity|]. apply IH; trivial.
  - apply cover_start. apply IH; trivial. lia.
  - cbn [laid] in L. destruct L as (L1 & L2 & L3 & L). destruct I as [I|I].
    { injection I as -> ->. congruence. }
    apply cover_skip; [rewrite G; reflexivity|]. apply IH; trivial.
Qed.

Lemma cover_init f len o cl : laid o cl -> cover (fun _ => false) (Some (f, len)) o cl [(f, len + length (concat (map snd cl)) + 16)].
Proof.
  revert len o. induction cl as [|[m d] cl IH]; intros len o L.
  - cbn. rewrite Nat.add_0_r. constructor.
  - cbn [laid] in L. destruct L as (L1 & L2 & L3 & L). cbn [map concat snd]. constructor; trivial.
    rewrite app_length, Nat.add_assoc. apply IH, L.
Qed.

(** The first loop of [remove_range_]. *)
Lemma cut_all cl G g sp : laid 16 cl -> cover g (Some (16, 0)) 16 cl sp ->
  (forall m, In m G -> exists d, In (m, d) cl /\ g (moff m) = false) -> NoDup (map moff G) ->
  exists g', (forall x, g' x = g x || existsb (fun m => x =? moff m) G) /\
    cover g' (Some (16, 0)) 16 cl (fold_left (fun sp m => cut sp (moff m) (msize m)) G sp).
Proof.
  intros L. revert g sp. induction G as [|m G IH]; intros g sp C H ND; cbn [fold_left].
  - exists g. split; [intros; cbn; rewrite orb_false_r; reflexivity|exact C].
  - destruct (H m (or_introl eq_refl)) as (d & I & K).
    destruct (laid_off _ _ _ _ L I) as (_ & _ & Es & _). rewrite Es.
    pose proof (cut_cover g m d K _ _ _ _ C L I eq_refl) as C'.
    inversion_clear ND as [|? ? NI ND'].
    destruct (IH _ _ C') as (g' & Hg & C2); trivial.
    { intros m' I'. destruct (H m' (or_intror I')) as (d' & I2 & K'). exists d'. split; trivial.
      rewrite K'. apply Nat.eqb_neq. intros E. apply NI. rewrite <- E. apply in_map, I'. }
    exists g'. split; [|exact C2]. intros x. rewrite Hg. cbn [existsb]. rewrite orb_assoc. reflexivity.
Qed.

(** The second loop does nothing. *)
Lemma join_apart s sp : apart s sp -> join_spaces s sp = s :: sp.
Proof.
  revert s. induction sp as [|n sp IH]; intros s H; [reflexivity|]. cbn [apart] in H. destruct H as [H1 H2].
  cbn [join_spaces]. destruct (Nat.eqb_spec (fst s + snd s) (fst n)); [lia|]. rewrite IH; trivial.
Qed.

(** The third loop. *)
Fixpoint shift_all (s : nat * nat) (sp : list (nat * nat)) (required : nat) (m : meta) : meta :=
  match sp with
  | [] => m
  | n :: r =>
    let required := required + (fst n - (fst s + snd s)) in shift_all n r required (shift_in n required m)
  end.

Lemma close_metas s sp : forall required data ms, snd (close_spaces s sp required data ms) = map (shift_all s sp required) ms.
Proof.
  revert s. induction sp as [|n sp IH]; intros s required data ms; cbn [close_spaces shift_all].
  - cbn [snd]. symmetry. apply map_id.
  - rewrite IH, map_map. reflexivity.
Qed.

Lemma shift_all_stay s sp : forall required m, Forall (fun n => moff m < fst n) sp -> shift_all s sp required m = m.
Proof.
  revert s. induction sp as [|n sp IH]; intros s required m H; [reflexivity|].
  inversion_clear H as [|? ? H1 H2]. cbn [shift_all]. unfold shift_in at 1.
  destruct (Nat.leb_spec (fst n) (moff m)); [lia|]. cbn [andb]. apply IH, H2.
Qed.

Lemma skipn_skipn {A} a b (l : list A) : skipn a (skipn b l) = skipn (b + a) l.
Proof. revert l. induction b as [|b IH]; intros l; [reflexivity|]. destruct l; [rewrite !skipn_nil; reflexivity|]. cbn. apply IH. Qed.

Lemma memmove_app K Y D e : let c := length (firstn e D) in
  memmove (K ++ Y ++ D) (16 + length K) (16 + length K + length Y) e
  = K ++ firstn e D ++ firstn (length Y) (skipn c (Y ++ D)) ++ skipn e D.
Proof.
  intros c. unfold memmove, header_size.
  replace (16 + length K + length Y - 16) with (length K + length Y) by lia.
  replace (16 + length K - 16) with (length K) by lia.
  assert (Q : skipn (length K + length Y) (K ++ Y ++ D) = D) by (rewrite app_assoc, <- app_length; apply skipn_length_app).
  rewrite Q. fold c. clear Q.
  rewrite firstn_length_app. do 2 f_equal.
  rewrite skipn_app, skipn_all2 by lia. replace (length K + c - length K) with c by lia. cbn [app].
  rewrite <- (firstn_skipn (length Y) (skipn c (Y ++ D))) at 1. f_equal.
  rewrite skipn_skipn, skipn_app, skipn_all2 by lia. cbn [app].
  replace (c + length Y - length Y) with c by lia.
  unfold c. rewrite firstn_length. destruct (Nat.min_spec e (length D)) as [[? ->]|[? ->]]; trivial.
  rewrite !skipn_all2 by lia. reflexivity.
Qed.

Lemma cover_close g kp : (forall m, kp m = negb (g (moff m))) -> forall st o cl sp0, cover g st o cl sp0 -> laid o cl ->
  match st with
  | Some (f, len) => forall s sp req K J ms, sp0 = s :: sp -> f + len = o -> o = 16 + length K + req -> length J = req ->
      exists J' ms',
        close_spaces s sp req (K ++ firstn (snd s - len) (concat (map snd cl)) ++ J ++ skipn (snd s - len) (concat (map snd cl))) ms
        = (length J', K ++ concat (map snd (kept kp cl)) ++ J', ms') /\
        length J' + length (concat (map snd (kept kp cl))) = req + length (concat (map snd cl))
  | None => forall s req K J X ms, fst s + snd s = 16 + length K + req -> length J = req -> o = fst s + snd s + length X ->
      exists J' ms',
        close_spaces s sp0 req (K ++ J ++ X ++ concat (map snd cl)) ms
        = (length J', K ++ concat (map snd (kept kp cl)) ++ J', ms') /\
        length J' + length (concat (map snd (kept kp cl))) = req + length X + length (concat (map snd cl))
  end.
Proof.
  intros KP st o cl sp0 C.
  induction C as [f0 len0 o|f0 len0 o m0 d0 r sp G C IH|f0 len0 o m0 d0 r sp G C IH|o cl sp C IH|o m0 d0 r sp G C IH];
    intros L.
  - intros s sp req K J ms E _ Eo EJ. injection E as <- <-. cbn. exists J, ms.
    rewrite firstn_nil, skipn_nil. cbn [app]. rewrite app_nil_r, EJ. split; [reflexivity|lia].
  - cbn [laid] in L. destruct L as (L1 & L2 & L3 & L).
    intros s sp' req K J ms -> E Eo EJ.
    destruct (cover_head _ _ _ _ _ C _ _ eq_refl L) as (e & t & Et & _ & _). injection Et as Es Et.
    cbn [map concat snd filter fst]. rewrite KP, L1, G. cbn [negb map concat snd].
    rewrite firstn_app, skipn_app, firstn_all2, skipn_all2 by (subst s; cbn [snd]; lia).
    replace (snd s - len0 - length d0) with (snd s - (len0 + length d0)) by lia. cbn [app].
    destruct (IH L s sp' req (K ++ d0) J ms eq_refl) as (J' & ms' & Q1 & Q2); [lia|rewrite app_length; lia|exact EJ|].
    exists J', ms'. rewrite <- !app_assoc in Q1. rewrite <- !app_assoc. rewrite Q1. split; [reflexivity|].
    rewrite !app_length. lia.
  - cbn [laid] in L. destruct L as (L1 & L2 & L3 & L).
    intros s sp' req K J ms E1 E Eo EJ. injection E1 as <- <-. cbn [snd]. rewrite Nat.sub_diag. cbn [firstn skipn app].
    cbn [map concat snd filter fst]. rewrite KP, L1, G. cbn [negb].
    destruct (IH L (f0, len0) req K J d0 ms) as (J' & ms' & Q1 & Q2); cbn [fst snd]; [lia|exact EJ|lia|].
    exists J', ms'. rewrite Q1. split; [reflexivity|]. rewrite app_length. lia.
  - intros s req K J X ms E EJ Eo.
    destruct (cover_head _ _ _ _ _ C _ _ eq_refl L) as (e & t & -> & _ & _). cbn [close_spaces fst snd].
    replace (fst s + snd s - req) with (16 + length K) by lia.
    replace (o - (fst s + snd s)) with (length X) by lia.
    assert (Eo' : o = 16 + length K + length (J ++ X)) by (rewrite app_length; lia).
    assert (M : memmove (K ++ J ++ X ++ concat (map snd cl)) (16 + length K) o (0 + e) =
      K ++ firstn (0 + e) (concat (map snd cl)) ++
      firstn (length (J ++ X)) (skipn (length (firstn (0 + e) (concat (map snd cl)))) ((J ++ X) ++ concat (map snd cl))) ++
      skipn (0 + e) (concat (map snd cl))).
    { rewrite Eo', (app_assoc J X). apply memmove_app. }
    change (0 + e) with e in M |- *. rewrite M. clear M.
    destruct (IH L (o, 0 + e) t (req + length X) K
        (firstn (length (J ++ X)) (skipn (length (firstn (0 + e) (concat (map snd cl)))) ((J ++ X) ++ concat (map snd cl))))
        (map (shift_in (o, 0 + e) (req + length X)) ms) eq_refl) as (J' & ms' & Q1 & Q2).
    + lia.
    + rewrite app_length in Eo'. lia.
    + rewrite firstn_length, skipn_length, app_length, app_length.
      pose proof (firstn_le_length (0 + e) (concat (map snd cl))).
      assert (length (firstn (0 + e) (concat (map snd cl))) <= length (concat (map snd cl))) by (rewrite firstn_length; lia). lia.
    + exists J', ms'. cbn [snd] in Q1. rewrite Nat.sub_0_r in Q1. change (0 + e) with e in Q1. rewrite Q1. split; [reflexivity|]. lia.
  - cbn [laid] in L. destruct L as (L1 & L2 & L3 & L).
    intros s req K J X ms E EJ Eo. cbn [map concat snd filter fst]. rewrite KP, L1, G. cbn [negb].
    destruct (IH L s req K J (X ++ d0) ms E EJ) as (J' & ms' & Q1 & Q2); [rewrite app_length; lia|].
    exists J', ms'. rewrite <- !app_assoc in Q1. rewrite Q1. split; [reflexivity|]. rewrite app_length in Q2. rewrite app_length. lia.
Qed.

Lemma cover_shift g kp : (forall m, kp m = negb (g (moff m))) -> forall st o cl sp0, cover g st o cl sp0 -> laid o cl ->
  forall l1 m d l2, cl = l1 ++ (m, d) :: l2 -> kp m = true ->
  match st with
  | Some (f, len) => forall s sp req kk, sp0 = s :: sp -> f + len = o -> o = 16 + kk + req ->
      shift_all s sp req (if moff m <? fst s + snd s then moved (moff m - req) m else m)
      = moved (16 + kk + length (concat (map snd (kept kp l1)))) m
  | None => forall s req kk, fst s + snd s = 16 + kk + req -> fst s + snd s <= o ->
      shift_all s sp0 req m = moved (16 + kk + length (concat (map snd (kept kp l1)))) m
  end.
Proof.
  intros KP st o cl sp0 C.
  induction C as [f0 len0 o|f0 len0 o m0 d0 r sp G C IH|f0 len0 o m0 d0 r sp G C IH|o cl sp C IH|o m0 d0 r sp G C IH];
    intros L l1 m d l2 E K.
  - destruct l1; discriminate E.
  - cbn [laid] in L. destruct L as (L1 & L2 & L3 & L). pose proof (nonempty_length d0 L3) as N.
    intros s sp' req kk -> Eo Ek.
    destruct (cover_apart _ _ _ _ _ C L) as (e & t & Et & _ & F); [lia|]. injection Et as -> ->.
    destruct l1 as [|p l1]; cbn [app] in E; injection E as <- E.
    + subst d0. rewrite L1. cbn [fst snd]. destruct (Nat.ltb_spec o (f0 + (len0 + length d + e))); [|lia].
      cbn. rewrite Nat.add_0_r. replace (o - req) with (16 + kk) by lia.
      apply (shift_all_stay (f0, len0 + length d + e)). eapply Forall_impl; [|exact F]. cbn. intros; lia.
    + specialize (IH L l1 m d l2 E K (f0, len0 + length d0 + e) t req (kk + length d0) eq_refl ltac:(lia) ltac:(lia)).
      rewrite IH. cbn [filter fst]. rewrite KP, L1, G. cbn [negb map concat snd]. rewrite app_length. f_equal. lia.
  - cbn [laid] in L. destruct L as (L1 & L2 & L3 & L). pose proof (nonempty_length d0 L3) as N.
    intros s sp' req kk E1 Eo Ek. injection E1 as <- <-.
    destruct l1 as [|p l1]; cbn [app] in E; injection E as <- E.
    { rewrite KP, L1, G in K. discriminate K. }
    assert (I : In (m, d) r) by (rewrite E; apply in_or_app; right; left; reflexivity).
    destruct (laid_off _ _ _ _ L I) as (Q & _). cbn [fst snd].
    destruct (Nat.ltb_spec (moff m) (f0 + len0)); [lia|].
    rewrite (IH L l1 m d l2 E K (f0, len0) req kk); cbn [fst snd]; [|lia|lia].
    cbn [filter fst]. rewrite KP, L1, G. reflexivity.
  - intros s req kk Es Eo.
    destruct (cover_head _ _ _ _ _ C _ _ eq_refl L) as (e & t & -> & _ & _). cbn [shift_all fst].
    assert (I : In (m, d) cl) by (rewrite E; apply in_or_app; right; left; reflexivity).
    destruct (laid_off _ _ _ _ L I) as (Q & _).
    rewrite <- (IH L l1 m d l2 E K (o, 0 + e) t (req + (o - (fst s + snd s))) kk eq_refl ltac:(lia) ltac:(lia)).
    f_equal. unfold shift_in. cbn [fst snd]. destruct (Nat.leb_spec o (moff m)); [|lia]. reflexivity.
  - cbn [laid] in L. destruct L as (L1 & L2 & L3 & L).
    intros s req kk Es Eo.
    destruct l1 as [|p l1]; cbn [app] in E; injection E as <- E.
    { rewrite KP, L1, G in K. discriminate K. }
    rewrite (IH L l1 m d l2 E K s req kk); [|lia|lia]. cbn [filter fst]. rewrite KP, L1, G. reflexivity.
Qed.

Lemma kept_nothing kp cl : Forall (fun p => kp (fst p) = true) cl -> kept kp cl = cl.
Proof. induction 1 as [|p l H F IH]; [reflexivity|]. cbn. rewrite H, IH. reflexivity. Qed.

Lemma NoDup_app_l {A} (l l' : list A) : NoDup (l ++ l') -> NoDup l /\ NoDup l' /\ (forall x, In x l -> ~ In x l').
Proof.
  induction l as [|a l IH]; cbn; intros H.
  - split; [constructor|]. split; [exact H|]. intros x [].
  - inversion_clear H as [|? ? N H']. destruct (IH H') as (H1 & H2 & H3). split; [|split; trivial].
    + constructor; trivial. intros I. apply N, in_or_app. auto.
    + intros x [<-|I] I'; [apply N, in_or_app; auto|]. exact (H3 x I I').
Qed.

(** [remove_range_] takes the given metadata and their bytes away and leaves the others with their bytes. *)
Lemma remove_range_effect b A B C cl :
  bmeta b = A ++ B ++ C -> Permutation (map fst cl) (bmeta b) -> laid 16 cl -> bdata b = concat (map snd cl) ->
  let b' := remove_range b (length A) (length A + length B) in
  (exists cl', Permutation (map fst cl') (bmeta b') /\ laid 16 cl' /\ bdata b' = concat (map snd cl')) /\
  items b' = map (fun m => (mkey m, read b m)) (A ++ C) /\
  map mkey (bmeta b') = map mkey (A ++ C) /\ map msize (bmeta b') = map msize (A ++ C) /\
  bfull b' = bfull b /\ bcount b' = bcount b /\ buniq b' = buniq b /\
  bavail b' = bavail b + list_sum (map msize B) + length B * 24.
Proof.
  intros M P L D b'.
  pose proof (laid_nodup _ _ L) as ND. rewrite (Permutation_map moff P), M in ND.
  rewrite !map_app in ND. apply NoDup_app_l in ND. destruct ND as (NA & NBC & NAx).
  apply NoDup_app_l in NBC. destruct NBC as (NB & NC & NBx).
  set (kp := fun m => negb (existsb (fun g => moff m =? moff g) B)).
  assert (KP : filter kp (bmeta b) = A ++ C).
  { rewrite M, !filter_app.
    assert (X : forall l, (forall m, In m l -> ~ In (moff m) (map moff B)) -> filter kp l = l).
    { intros l H. induction l as [|m l IH]; [reflexivity|]. cbn.
      assert (Q : kp m = true).
      { unfold kp. destruct (existsb _ B) eqn:E; trivial. apply existsb_exists in E. destruct E as (g & Ig & Eg).
        apply Nat.eqb_eq in Eg. exfalso. apply (H m (or_introl eq_refl)). rewrite Eg. apply in_map, Ig. }
      rewrite Q. f_equal. apply IH. intros m' I'. apply H. right. exact I'. }
    rewrite (X A), (X C).
    - replace (filter kp B) with (@nil meta); [reflexivity|]. symmetry.
      assert (Y : forall l, incl l B -> filter kp l = []).
      { intros l H. induction l as [|m l IH]; [reflexivity|]. cbn.
        assert (Q : kp m = false).
        { unfold kp. apply negb_false_iff, existsb_exists. exists m. split; [apply H; left; reflexivity|apply Nat.eqb_refl]. }
        rewrite Q. apply IH. intros z Iz. apply H. right. exact Iz. }
      apply Y, incl_refl.
    - intros m I I'. apply in_map_iff in I'. destruct I' as (g & Eg & Ig).
      apply (NBx (moff g)); [apply in_map, Ig|]. rewrite Eg. apply in_map, I.
    - intros m I I'. apply (NAx (moff m)); [apply in_map, I|]. apply in_or_app. left. exact I'. }
  assert (G : slice (length A) (length A + length B) (bmeta b) = B) by (rewrite M; apply slice_app).
  destruct (cut_all cl B (fun _ => false) [(16, 0 + length (concat (map snd cl)) + 16)] L) as (g' & Hg & C0).
  { apply cover_init, L. }
  { intros m I. destruct (laid_in cl b m P) as [d Id]; [rewrite M; apply in_or_app; right; apply in_or_app; left; exact I|].
    exists d. auto. }
  { exact NB. }
  assert (KG : forall m, kp m = negb (g' (moff m))) by (intros m; rewrite Hg; reflexivity).
  destruct (cover_apart _ _ _ _ _ C0 L) as (e & t & Et & AP & _); [reflexivity|].
  destruct (cover_close g' kp KG _ _ _ _ C0 L (16, 0 + e) t 0 [] [] (A ++ C) Et eq_refl eq_refl eq_refl) as (J & ms' & Q1 & Q2).
  cbn [app length] in Q1, Q2. rewrite Nat.sub_0_r, firstn_skipn in Q1.
  assert (R : relocates kp (shift_all (16, 0 + e) t 0) 16 cl).
  { intros l1 m d l2 E K.
    pose proof (cover_shift g' kp KG _ _ _ _ C0 L l1 m d l2 E K (16, 0 + e) t 0 0 Et eq_refl eq_refl) as S.
    rewrite Nat.add_0_r in S. rewrite <- S. f_equal.
    destruct (moff m <? _); [|reflexivity]. rewrite Nat.sub_0_r. destruct m; reflexivity. }
  assert (MS : ms' = map (shift_all (16, 0 + e) t 0) (A ++ C)).
  { pose proof (close_metas (16, 0 + e) t 0 (concat (map snd cl)) (A ++ C)) as X. rewrite Q1 in X. exact X. }
  assert (RR : b' = {| bfull := bfull b; bdata := concat (map snd (kept kp cl)); bmeta := ms'; bcount := bcount b; buniq := buniq b;
                       bavail := bavail b + list_sum (map msize B) + length B * 24 |}).
  { unfold b', remove_range. rewrite G.
    replace (header_size, header_size + length (bdata b)) with (16, 0 + length (concat (map snd cl)) + 16)
      by (rewrite D; unfold header_size; f_equal; lia).
    rewrite Et, (join_apart _ _ AP).
    replace (firstn (length A) (bmeta b) ++ skipn (length A + length B) (bmeta b)) with (A ++ C).
    2:{ rewrite M, firstn_length_app. f_equal. rewrite app_assoc, <- app_length, skipn_length_app. reflexivity. }
    rewrite D, Q1. unfold metadata_size.
    replace (length A + length B - length A) with (length B) by lia.
    replace (length (concat (map snd cl)) - length J) with (length (concat (map snd (kept kp cl)))) by lia.
    rewrite firstn_length_app. reflexivity. }
  destruct (shrink b b' kp (shift_all (16, 0 + e) t 0) cl P L D R) as (S1 & S2 & S3 & S4).
  { rewrite RR, KP. exact MS. }
  { rewrite RR. reflexivity. }
  rewrite KP in S2, S3, S4. repeat split; trivial; rewrite RR; reflexivity.
Qed.

(** * Lists of entries *)
Lemma desc_keys l : desc l <-> StronglySorted (fun a b => less a b = false) (map mkey l).
Proof.
  induction l as [|m l IH]; cbn; [split; constructor|].
  split; intros H; inversion_clear H as [|? ? H1 H2].
  - constructor; [apply IH, H1|]. rewrite Forall_map. exact H2.
  - constructor; [apply IH, H1|]. rewrite Forall_map in H2. exact H2.
Qed.

Lemma fop_app {A} (R : A -> A -> Prop) l1 l2 : ForallOrdPairs R (l1 ++ l2) <->
  ForallOrdPairs R l1 /\ ForallOrdPairs R l2 /\ (forall a b, In a l1 -> In b l2 -> R a b).
Proof.
  induction l1 as [|x l1 IH]; cbn [app].
  - split; [intros H; split; [constructor|split; [exact H|intros ? ? []]]|intros (_ & H & _); exact H].
  - split.
    + intros H. inversion_clear H as [|? ? F H']. apply IH in H'. destruct H' as (H1 & H2 & H3).
      rewrite Forall_app in F. destruct F as [F1 F2]. split; [constructor; trivial|]. split; trivial.
      intros a a' [<-|I] I'; [rewrite Forall_forall in F2; auto|auto].
    + intros (H1 & H2 & H3). inversion_clear H1 as [|? ? F H1'].
      constructor.
      * rewrite Forall_app. split; trivial. rewrite Forall_forall. intros; apply H3; [left|]; trivial.
      * apply IH. split; trivial. split; trivial. intros; apply H3; [right|]; trivial.
Qed.

Lemma distinct_app l1 l2 : (forall a b, In a l1 -> In b l2 -> equal a b = false) ->
  distinct (l1 ++ l2) = distinct l1 + distinct l2.
Proof.
  induction l1 as [|a l1 IH]; intros H; [reflexivity|]. cbn [app distinct].
  rewrite existsb_app.
  replace (existsb (equal a) l2) with false.
  2:{ symmetry. destruct (existsb (equal a) l2) eqn:E; trivial. apply existsb_exists in E. destruct E as (b & I & E).
      rewrite (H a b) in E; trivial; [discriminate E|left; reflexivity]. }
  rewrite orb_false_r, IH by (intros; apply H; [right|]; trivial).
  destruct (existsb (equal a) l1); reflexivity.
Qed.

Lemma distinct_same l : l <> [] -> (forall a b, In a l -> In b l -> equal a b = true) -> distinct l = 1.
Proof.
  induction l as [|a l IH]; intros N H; [congruence|]. cbn [distinct].
  destruct l as [|b l]; [reflexivity|].
  assert (E : existsb (equal a) (b :: l) = true).
  { apply existsb_exists. exists b. split; [left; reflexivity|]. apply H; [left|right; left]; reflexivity. }
  rewrite E. apply IH; [discriminate|]. intros; apply H; right; trivial.
Qed.

Section Ranges.
  Variable r : regime.

  Lemma parts_ok k l A B C : parts k l A B C -> keys_ok r l -> keys_ok r A /\ keys_ok r B /\ keys_ok r C.
  Proof. intros (-> & _) H. rewrite !Forall_app in H. tauto. Qed.

  Lemma parts_cross k l A B C : parts k l A B C -> exact r k -> keys_ok r l ->
    (forall a b, In a A -> In b (B ++ C) -> equal (mkey a) (mkey b) = false) /\
    (forall a b, In a B -> In b C -> equal (mkey a) (mkey b) = false) /\
    (forall a b, In a B -> In b B -> equal (mkey a) (mkey b) = true).
  Proof.
    intros Pt Hk Hl. pose proof (parts_ok _ _ _ _ _ Pt Hl) as (OA & OB & OC).
    destruct Pt as (-> & HA & HB & HC).
    rewrite Forall_forall in OA, OB, OC, HA, HB, HC.
    split; [|split].
    - intros a b Ia Ib. assert (Q : less (mkey b) (mkey a) = true).
      { apply in_app_or in Ib. destruct Ib as [Ib|Ib].
        - rewrite (equal_less_l r (mkey b) k); auto. rewrite equal_sym. auto.
        - apply (less_trans r _ k); auto. }
      unfold equal, greater. rewrite Q. apply andb_false_r.
    - intros a b Ia Ib. assert (Q : less (mkey b) (mkey a) = true).
      { rewrite (equal_less_r r (mkey a) k); auto. rewrite equal_sym. auto. }
      unfold equal, greater. rewrite Q. apply andb_false_r.
    - intros a b Ia Ib. apply (equal_trans r _ k); auto. rewrite equal_sym. auto.
  Qed.

  Lemma parts_distinct k l A B C : parts k l A B C -> exact r k -> keys_ok r l ->
    distinct (map mkey l) = distinct (map mkey A) + (match B with [] => 0 | _ => 1 end) + distinct (map mkey C) /\
    distinct (map mkey (A ++ C)) = distinct (map mkey A) + distinct (map mkey C).
  Proof.
    intros Pt Hk Hl. destruct (parts_cross _ _ _ _ _ Pt Hk Hl) as (X1 & X2 & X3). destruct Pt as (-> & _).
    rewrite !map_app. split.
    - rewrite distinct_app, distinct_app.
      + rewrite Nat.add_assoc. do 2 f_equal. destruct B as [|m B]; [reflexivity|].
        apply distinct_same; [discriminate|]. intros a b Ia Ib. apply in_map_iff in Ia, Ib.
        destruct Ia as (ma & <- & Ia), Ib as (mb & <- & Ib). auto.
      + intros a b Ia Ib. apply in_map_iff in Ia, Ib. destruct Ia as (ma & <- & Ia), Ib as (mb & <- & Ib). auto.
      + intros a b Ia Ib. rewrite <- map_app in Ib. apply in_map_iff in Ia, Ib. destruct Ia as (ma & <- & Ia), Ib as (mb & <- & Ib). auto.
    - apply distinct_app. intros a b Ia Ib. apply in_map_iff in Ia, Ib. destruct Ia as (ma & <- & Ia), Ib as (mb & <- & Ib).
      apply X1; [|apply in_or_app; right]; trivial.
  Qed.
End Ranges.

Lemma items_keys b : map fst (items b) = map mkey (bmeta b).
Proof. unfold items. rewrite map_map. reflexivity. Qed.

Lemma valid_read_length r b m : valid r b -> In m (bmeta b) -> length (read b m) = msize m /\ read b m <> [].
Proof.
  intros V I. destruct (valid_laid _ _ V) as (cl & P & L & D). destruct (laid_in cl b m P I) as [d Id].
  unfold read. rewrite (laid_read cl m d _ L D Id). destruct (laid_off _ _ _ _ L Id) as (_ & _ & -> & N). auto.
Qed.

Lemma list_sum_perm l l' : Permutation l l' -> list_sum l = list_sum l'.
Proof. unfold list_sum. induction 1; cbn [fold_right]; lia. Qed.

Lemma valid_data_length r b : valid r b -> length (bdata b) = list_sum (map msize (bmeta b)).
Proof.
  intros V. destruct (valid_laid _ _ V) as (cl & P & L & D).
  rewrite D, <- (laid_size _ _ L). apply list_sum_perm, Permutation_map, P.
Qed.

Lemma room_cons k x l : room ((k, x) :: l) = length x + 24 + room l.
Proof.
  unfold room. cbn [map snd].
  change (list_sum (length x + 24 :: map (fun e : pval * list byte => length (snd e) + 24) l))
    with (length x + 24 + list_sum (map (fun e : pval * list byte => length (snd e) + 24) l)). lia.
Qed.

Lemma room_items r b : valid r b -> room (items b) = 16 + length (bdata b) + 24 * length (bmeta b).
Proof.
  intros V. unfold room, items. rewrite map_map. cbn [snd].
  rewrite (valid_data_length r b V).
  assert (H : forall l, incl l (bmeta b) -> list_sum (map (fun m => length (read b m) + 24) l) = list_sum (map msize l) + 24 * length l).
  { induction l as [|m l IH]; intros I; [reflexivity|].
    change (length (read b m) + 24 + list_sum (map (fun m => length (read b m) + 24) l) = msize m + list_sum (map msize l) + 24 * S (length l)).
    rewrite IH by (intros z Iz; apply I; right; exact Iz).
    destruct (valid_read_length r b m V) as [-> _]; [apply I; left; reflexivity|]. lia. }
  rewrite H by apply incl_refl. lia.
Qed.

Lemma same_spec r b x m k : valid r b -> In m (bmeta b) -> equal k (mkey m) = true ->
  same b x m = is_entry k x (mkey m, read b m).
Proof.
  intros V I E. unfold same, is_entry, bytes_eqb. cbn [fst snd]. rewrite E. cbn [andb].
  destruct (list_eq_dec ascii_dec x (read b m)) as [Q|Q]; [|apply andb_false_r].
  destruct (valid_read_length r b m V I) as [H _]. rewrite Q, H, Nat.eqb_refl. reflexivity.
Qed.

Lemma has_entry_parts r b k x A B C : valid r b -> exact r k -> parts k (bmeta b) A B C ->
  has_entry (items b) k x = existsb (same b x) B /\ has_key (items b) k = negb (0 =? length B).
Proof.
  intros V Hk Pt. pose proof (valid_keys _ _ V) as Hl.
  pose proof (parts_ok r _ _ _ _ _ Pt Hl) as (OA & OB & OC). pose proof Pt as (M & HA & HB & HC).
  rewrite Forall_forall in OA, OB, OC, HA, HB, HC.
  assert (NA : forall m, In m A -> equal k (mkey m) = false).
  { intros m I. unfold equal. rewrite (HA m I). reflexivity. }
  assert (NC : forall m, In m C -> equal k (mkey m) = false).
  { intros m I. unfold equal, greater. rewrite (HC m I). apply andb_false_r. }
  unfold has_entry, has_key, items. rewrite M, !map_app, !existsb_app.
  assert (EX : forall {T} (f : T -> bool) l, (forall z, In z l -> f z = false) -> existsb f l = false).
  { intros T f l H. destruct (existsb f l) eqn:E; trivial. apply existsb_exists in E. destruct E as (z & I & E). rewrite H in E by trivial. discriminate E. }
  rewrite !(EX _ _ (map _ A)), !(EX _ _ (map _ C)); cbn [orb].
  2,3,4,5: intros z I; apply in_map_iff in I; destruct I as (m & <- & I); unfold is_entry; cbn [fst];
      first [rewrite (NA _ I); reflexivity|rewrite (NC _ I); reflexivity].
  rewrite !orb_false_r. split.
  - assert (IB : incl B (bmeta b)) by (rewrite M; intros z I; apply in_or_app; right; apply in_or_app; left; exact I).
    clear M Pt. induction B as [|m B IH]; [reflexivity|]. cbn [map existsb].
    rewrite <- (same_spec r b x m k V (IB m (or_introl eq_refl)) (HB m (or_introl eq_refl))). f_equal. apply IH.
    + intros z I; apply OB; right; exact I.
    + intros z I; apply HB; right; exact I.
    + intros z I; apply IB; right; exact I.
  - destruct B as [|m B]; [reflexivity|]. cbn. rewrite (HB m (or_introl eq_refl)). reflexivity.
Qed.

(** [remove]'s way of taking one item away. *)
Lemma remove_at_effect b A m C cl :
  bmeta b = A ++ m :: C -> Permutation (map fst cl) (bmeta b) -> laid 16 cl -> bdata b = concat (map snd cl) ->
  let b' := remove_at b (length A) m in
  (exists cl', Permutation (map fst cl') (bmeta b') /\ laid 16 cl' /\ bdata b' = concat (map snd cl')) /\
  items b' = map (fun m => (mkey m, read b m)) (A ++ C) /\
  map mkey (bmeta b') = map mkey (A ++ C) /\ map msize (bmeta b') = map msize (A ++ C) /\
  bfull b' = bfull b /\ bcount b' = bcount b /\ buniq b' = buniq b /\
  bavail b' = bavail b + (msize m + 24).
Proof.
  intros M P L D b'.
  pose proof (laid_nodup _ _ L) as ND. rewrite (Permutation_map moff P), M in ND.
  rewrite map_app in ND. cbn [map] in ND. pose proof (NoDup_remove_2 _ _ _ ND) as NI.
  destruct (laid_in cl b m P) as [d Id]; [rewrite M; apply in_or_app; right; left; reflexivity|].
  set (kp := fun m' => negb (moff m' =? moff m)).
  assert (X : forall l, (forall m', In m' l -> moff m' <> moff m) -> filter kp l = l).
  { intros l H. induction l as [|m' l IH]; [reflexivity|]. cbn.
    unfold kp at 1. destruct (Nat.eqb_spec (moff m') (moff m)) as [E|E].
    - exfalso. apply (H m'); trivial. left. reflexivity.
    - cbn [negb]. f_equal. apply IH. intros; apply H; right; trivial. }
  assert (KP : filter kp (bmeta b) = A ++ C).
  { rewrite M, filter_app. cbn [filter]. replace (kp m) with false by (unfold kp; rewrite Nat.eqb_refl; reflexivity).
    rewrite !X; trivial.
    - intros m' I E. apply NI, in_or_app. right. rewrite <- E. apply in_map, I.
    - intros m' I E. apply NI, in_or_app. left. rewrite <- E. apply in_map, I. }
  destruct (shrink b b' kp (shift_after (moff m) (msize m)) cl P L D (relocates_one cl m d L Id)) as (S1 & S2 & S3 & S4).
  { unfold b', remove_at. cbn [bmeta]. rewrite KP. f_equal. rewrite M, firstn_length_app. f_equal.
    rewrite skipn_app, skipn_all2 by lia. replace (length A + 1 - length A) with 1 by lia. reflexivity. }
  { unfold b', remove_at. cbn [bdata]. rewrite D. unfold header_size.
    pose proof (laid_nodup _ _ L) as ND'.
    apply in_split in Id. destruct Id as (a & c & ->). apply laid_app in L. destruct L as [La L]. cbn [laid] in L.
    destruct L as (L1 & L2 & L3 & Lc).
    rewrite map_map, map_app in ND'. cbn [map fst] in ND'. pose proof (NoDup_remove_2 _ _ _ ND') as NI'.
    rewrite filter_app. cbn [filter fst]. replace (kp m) with false by (unfold kp; rewrite Nat.eqb_refl; reflexivity).
    assert (Y : forall l, (forall p, In p l -> In (moff (fst p)) (map (fun x => moff (fst x)) a ++ map (fun x => moff (fst x)) c)) -> kept kp l = l).
    { intros l H. apply kept_nothing. rewrite Forall_forall. intros p I. unfold kp.
      destruct (Nat.eqb_spec (moff (fst p)) (moff m)) as [E|E]; [|reflexivity]. exfalso. apply NI'. rewrite <- E. apply H, I. }
    rewrite (Y a), (Y c).
    - rewrite !map_app, !concat_app. cbn [map concat snd].
      replace (moff m - 16) with (length (concat (map snd a))) by lia.
      rewrite firstn_length_app. f_equal. rewrite L2, app_assoc, <- app_length. apply skipn_length_app.
    - intros p I. apply in_or_app. right. apply (in_map (fun x => moff (fst x)) _ _ I).
    - intros p I. apply in_or_app. left. apply (in_map (fun x => moff (fst x)) _ _ I). }
  rewrite KP in S2, S3, S4. repeat split; trivial.
Qed.

Lemma valid_shrunk r b b' A B C : valid r b -> bmeta b = A ++ B ++ C ->
  (exists cl', Permutation (map fst cl') (bmeta b') /\ laid 16 cl' /\ bdata b' = concat (map snd cl')) ->
  items b' = map (fun m => (mkey m, read b m)) (A ++ C) ->
  map mkey (bmeta b') = map mkey (A ++ C) -> map msize (bmeta b') = map msize (A ++ C) ->
  bfull b' = bfull b -> bavail b' = bavail b + list_sum (map msize B) + length B * 24 ->
  bcount b' = Z.of_nat (length A + length C) -> buniq b' = Z.of_nat (distinct (map mkey (A ++ C))) -> valid r b'.
Proof.
  intros V M La I K S F Av Co Un.
  assert (LM : length (bmeta b') = length A + length C) by (rewrite <- (map_length mkey), K, map_length, app_length; reflexivity).
  constructor.
  - rewrite <- Forall_map, K, Forall_map. pose proof (valid_keys _ _ V) as H. rewrite M, !Forall_app in H.
    rewrite Forall_app. tauto.
  - apply desc_keys. rewrite K. apply desc_keys. pose proof (valid_sorted _ _ V) as H. rewrite M in H.
    apply desc_app in H. destruct H as (H1 & H2 & H3). apply desc_app in H2. destruct H2 as (_ & H2 & _).
    apply desc_app. split; trivial. split; trivial. intros; apply H3; trivial. apply in_or_app. auto.
  - rewrite I, map_app. pose proof (valid_once _ _ V) as H. unfold items in H. rewrite M, !map_app in H.
    apply fop_app in H. destruct H as (H1 & H2 & H3). apply fop_app in H2. destruct H2 as (_ & H2 & _).
    apply fop_app. split; trivial. split; trivial. intros; apply H3; trivial. apply in_or_app. auto.
  - exact La.
  - destruct La as (cl' & P & L & D). rewrite D, <- (laid_size _ _ L), (list_sum_perm _ _ (Permutation_map msize P)), S.
    pose proof (valid_space _ _ V) as H. rewrite (valid_data_length r b V), M in H.
    rewrite !map_app, !list_sum_app, !app_length in H. rewrite map_app, list_sum_app, Av, F, LM. lia.
  - rewrite F. apply (valid_full _ _ V).
  - rewrite LM. exact Co.
  - rewrite items_keys, K. exact Un.
Qed.

Lemma valid_bound r b : valid r b -> (24 * Z.of_nat (length (bmeta b)) < 2 ^ 32)%Z.
Proof. intros V. pose proof (valid_space _ _ V). pose proof (valid_full _ _ V). lia. Qed.

Lemma u32_small z : (0 <= z < 2 ^ 32)%Z -> u32 z = z.
Proof. apply Z.mod_small. Qed.

Lemma distinct_le l : distinct l <= length l.
Proof. induction l as [|k l IH]; [reflexivity|]. cbn. destruct (existsb _ l); lia. Qed.

Lemma valid_init r size : 16 <= size -> (Z.of_nat size < 2 ^ 32)%Z -> valid r (initialize size).
Proof.
  intros H1 H2. constructor; cbn; trivial; try constructor.
  - exists []. cbn. repeat split; trivial.
  - unfold header_size. lia.
Qed.

(** * The operations *)
Lemma append_spec r b k x : valid r b -> exact r k -> x <> [] ->
  let res := append b k x in let spec := bag_append (bfull b) (items b) k x in
  fst res = fst spec /\ Permutation (items (snd res)) (snd spec) /\ valid r (snd res) /\ bfull (snd res) = bfull b.
Proof.
  intros V Hk Hx res spec.
  destruct (parts_exist r k (bmeta b) Hk (valid_keys _ _ V) (valid_sorted _ _ V)) as (A & B & C & Pt).
  pose proof (has_entry_parts r b k x A B C V Hk Pt) as [HE _].
  assert (RM : is_memory_available b (length x) = (room ((k, x) :: items b) <=? bfull b)).
  { unfold is_memory_available, metadata_size. pose proof (room_items r b V) as R. pose proof (valid_space _ _ V) as Sp.
    pose proof (room_cons k x (items b)) as R'.
    rewrite R', R. destruct (Nat.leb_spec (length x + 24) (bavail b)), (Nat.leb_spec (length x + 24 + (16 + length (bdata b) + 24 * length (bmeta b))) (bfull b)); lia || reflexivity. }
  pose proof (find_index_range_parts r b k A B C Hk (valid_keys _ _ V) Pt) as FR.
  pose proof Pt as (M & HA & HB & HC).
  unfold res, spec, append, bag_append. rewrite FR, <- RM.
  replace (slice (length A) (length A + length B) (bmeta b)) with B by (rewrite M; symmetry; apply slice_app).
  rewrite <- HE.
  destruct (is_memory_available b (length x)) eqn:EM; cbn [negb andb]; [|cbn; auto].
  destruct (has_entry (items b) k x) eqn:EH; cbn [negb]; [cbn; auto|].
  cbn [fst snd bfull]. split; [reflexivity|].
  set (nm := {| moff := header_size + length (bdata b); msize := length x; mkey := k |}).
  destruct (valid_laid _ _ V) as (cl & P & L & D).
  assert (FN : firstn (length A) (bmeta b) = A) by (rewrite M; apply firstn_length_app).
  assert (SK : skipn (length A) (bmeta b) = B ++ C) by (rewrite M; apply skipn_length_app).
  rewrite FN, SK.
  match goal with |- Permutation (items ?bb) _ /\ _ => set (b' := bb) end.
  assert (RD : forall m, In m (bmeta b) -> read b' m = read b m).
  { intros m I. destruct (laid_in cl b m P I) as [d Id]. unfold read, b'. cbn [bdata].
    rewrite (laid_read cl m d _ L D Id), (laid_read_ext cl m d _ x L D Id). reflexivity. }
  assert (RN : read b' nm = x).
  { unfold read, b', nm. cbn [bdata moff msize]. rewrite <- (app_nil_r x) at 1. apply bytes_at_app. reflexivity. }
  assert (IM : items b' = map (fun m => (mkey m, read b m)) A ++ (k, x) :: map (fun m => (mkey m, read b m)) (B ++ C)).
  { unfold items. change (bmeta b') with (A ++ nm :: B ++ C). rewrite map_app. cbn [map].
    change (mkey nm) with k. rewrite RN. f_equal; [|f_equal]; apply map_ext_in; intros m I; rewrite RD; trivial; rewrite M; apply in_or_app; auto. }
  assert (IB : items b = map (fun m => (mkey m, read b m)) A ++ map (fun m => (mkey m, read b m)) (B ++ C)).
  { unfold items. rewrite M at 1. apply map_app. }
  pose proof (valid_bound r b V) as VB.
  assert (ML : length (bmeta b) = length A + (length B + length C)) by (rewrite M, !app_length; reflexivity).
  split; [|split; [|reflexivity]].
  - rewrite IM, IB. symmetry. apply Permutation_middle.
  - destruct (parts_ok r _ _ _ _ _ Pt (valid_keys _ _ V)) as (OA & OB & OC).
    constructor.
    + change (bmeta b') with (A ++ nm :: B ++ C). rewrite Forall_app. split; trivial. constructor; trivial.
      rewrite Forall_app. auto.
    + change (bmeta b') with (A ++ nm :: B ++ C). pose proof (valid_sorted _ _ V) as Q. rewrite M in Q.
      apply desc_app in Q. destruct Q as (Q1 & Q2 & Q3). apply desc_app. split; trivial. split.
      * constructor; trivial. rewrite Forall_app. split.
        -- eapply Forall_impl; [|exact HB]. cbn. intros m E. apply equal_spec in E. tauto.
        -- rewrite Forall_forall in HC, OC |- *. intros m I. cbn. apply (less_asym r); auto.
      * intros m m' I [<-|I'].
        -- rewrite Forall_forall in HA, OA. cbn. apply (less_asym r); auto.
        -- apply Q3; trivial.
    + rewrite IM. pose proof (valid_once _ _ V) as Q. rewrite IB in Q. apply fop_app in Q. destruct Q as (Q1 & Q2 & Q3).
      assert (NE : forall e, In e (items b) -> is_entry k x e = false).
      { intros e I. destruct (is_entry k x e) eqn:E; trivial.
        assert (has_entry (items b) k x = true) by (apply existsb_exists; exists e; auto). congruence. }
      apply fop_app. split; trivial. split.
      * constructor; trivial. rewrite Forall_forall. intros e I. cbn [fst snd]. apply NE. rewrite IB. apply in_or_app. auto.
      * intros e e' I [<-|I'].
        -- unfold is_entry. cbn [fst snd]. rewrite equal_sym.
           destruct (list_eq_dec ascii_dec (snd e) x) as [E|E]; [|apply andb_false_r].
           pose proof (NE e) as N. rewrite IB in N. specialize (N ltac:(apply in_or_app; auto)).
           unfold is_entry in N. destruct (list_eq_dec ascii_dec x (snd e)); [exact N|congruence].
        -- apply Q3; trivial.
    + exists (cl ++ [(nm, x)]). change (bmeta b') with (A ++ nm :: B ++ C). change (bdata b') with (bdata b ++ x).
      rewrite !map_app. cbn [map fst snd]. split; [|split].
      * rewrite P, M. etransitivity; [|apply Permutation_middle]. symmetry. apply Permutation_cons_append.
      * apply laid_app. split; trivial. cbn [laid]. unfold nm. cbn [moff msize]. rewrite D. repeat split; trivial.
      * rewrite concat_app, D. cbn [concat]. rewrite app_nil_r. reflexivity.
    + change (bmeta b') with (A ++ nm :: B ++ C). change (bdata b') with (bdata b ++ x).
      change (bfull b') with (bfull b). change (bavail b') with (bavail b - (length x + metadata_size)).
      unfold is_memory_available in EM. apply Nat.leb_le in EM. unfold metadata_size in *.
      pose proof (valid_space _ _ V) as Q. rewrite ML in Q. rewrite !app_length. cbn [length]. rewrite app_length. lia.
    + apply (valid_full _ _ V).
    + change (bcount b') with (u32 (bcount b + 1)). change (bmeta b') with (A ++ nm :: B ++ C).
      rewrite (valid_count _ _ V), u32_small by lia. rewrite app_length. cbn [length]. rewrite app_length. lia.
    + rewrite items_keys. change (bmeta b') with (A ++ nm :: B ++ C).
      change (buniq b') with (if length A =? length A + length B then u32 (buniq b + 1) else buniq b).
      assert (Pt' : parts k (A ++ (nm :: B) ++ C) A (nm :: B) C).
      { repeat split; trivial. constructor; trivial. apply equal_refl. }
      assert (OK' : keys_ok r (A ++ (nm :: B) ++ C)).
      { rewrite !Forall_app. split; trivial. split; trivial. constructor; trivial. }
      destruct (parts_distinct r k _ A (nm :: B) C Pt' Hk OK') as [Q1 _]. cbn [app] in Q1. rewrite Q1.
      destruct (parts_distinct r k _ A B C Pt Hk (valid_keys _ _ V)) as [Q2 _].
      pose proof (valid_uniq _ _ V) as Q3. rewrite items_keys, Q2 in Q3.
      pose proof (distinct_le (map mkey A)). pose proof (distinct_le (map mkey C)). rewrite !map_length in *.
      destruct B as [|m B].
      * rewrite Nat.add_0_r, Nat.eqb_refl, Q3, u32_small by (cbn [length] in ML; lia). lia.
      * destruct (Nat.eqb_spec (length A) (length A + length (m :: B))) as [E|E]; [cbn [length] in E; lia|]. exact Q3.
Qed.

Lemma filter_all {A} (f : A -> bool) l : (forall x, In x l -> f x = true) -> filter f l = l.
Proof. induction l as [|x l IH]; intros H; [reflexivity|]. cbn. rewrite H by (left; reflexivity). f_equal. apply IH. intros; apply H; right; trivial. Qed.
Lemma filter_none {A} (f : A -> bool) l : (forall x, In x l -> f x = false) -> filter f l = [].
Proof. induction l as [|x l IH]; intros H; [reflexivity|]. cbn. rewrite H by (left; reflexivity). apply IH. intros; apply H; right; trivial. Qed.

Lemma parts_other r k l A B C : parts k l A B C -> exact r k -> keys_ok r l ->
  (forall m, In m A -> equal k (mkey m) = false) /\ (forall m, In m C -> equal k (mkey m) = false).
Proof.
  intros (_ & HA & _ & HC) Hk Hl. rewrite Forall_forall in HA, HC. split; intros m I; unfold equal, greater.
  - rewrite (HA m I). reflexivity.
  - rewrite (HC m I). apply andb_false_r.
Qed.

Lemma remove_key_spec r b k : valid r b -> exact r k ->
  let res := remove_index b k in let spec := bag_remove_key (items b) k in
  fst res = fst spec /\ items (snd res) = snd spec /\ valid r (snd res) /\ bfull (snd res) = bfull b.
Proof.
  intros V Hk res spec.
  destruct (parts_exist r k (bmeta b) Hk (valid_keys _ _ V) (valid_sorted _ _ V)) as (A & B & C & Pt).
  pose proof (has_entry_parts r b k [] A B C V Hk Pt) as [_ HK].
  pose proof (find_index_range_parts r b k A B C Hk (valid_keys _ _ V) Pt) as FR.
  destruct (parts_other r k _ A B C Pt Hk (valid_keys _ _ V)) as [NA NC].
  destruct (parts_distinct r k _ A B C Pt Hk (valid_keys _ _ V)) as [D1 D2].
  pose proof (valid_uniq _ _ V) as U. rewrite items_keys, D1 in U.
  pose proof (valid_count _ _ V) as Co. pose proof (valid_bound r b V) as VB.
  pose proof Pt as (M & HA & HB & HC). rewrite Forall_forall in HB.
  assert (ML : length (bmeta b) = length A + (length B + length C)) by (rewrite M, !app_length; reflexivity).
  assert (FI : snd spec = map (fun m => (mkey m, read b m)) (A ++ C)).
  { unfold spec, bag_remove_key, items. cbn [snd]. rewrite M, !map_app, !filter_app.
    rewrite (filter_all _ (map _ A)), (filter_none _ (map _ B)), (filter_all _ (map _ C)); trivial;
      intros e I; apply in_map_iff in I; destruct I as (m & <- & I); cbn [fst].
    - rewrite (NC m I). reflexivity.
    - rewrite (HB m I). reflexivity.
    - rewrite (NA m I). reflexivity. }
  rewrite FI. unfold res, spec, remove_index, bag_remove_key. rewrite FR, HK. cbn [fst].
  destruct B as [|m0 B0] eqn:EB.
  - cbn [length]. rewrite Nat.add_0_r, Nat.eqb_refl. cbn [fst snd]. split; [reflexivity|]. split; [|split; trivial].
    unfold items. rewrite M. cbn [app]. reflexivity.
  - rewrite <- EB in *. assert (LB : 0 < length B) by (subst B; cbn; lia).
    destruct (Nat.eqb_spec (length A) (length A + length B)); [lia|].
    destruct (Nat.eqb_spec 0 (length B)); [lia|]. cbn [fst snd negb]. split; [reflexivity|].
    match goal with |- items (remove_range ?bb _ _) = _ /\ _ => set (b1 := bb) end.
    destruct (valid_laid _ _ V) as (cl & P & L & D).
    destruct (remove_range_effect b1 A B C cl M P L D) as (E1 & E2 & E3 & E4 & E5 & E6 & E7 & E8).
    split; [exact E2|]. split; [|exact E5].
    apply (valid_shrunk r b _ A B C V M E1 E2 E3 E4 E5 E8).
    + rewrite E6. unfold b1. cbn [bcount]. rewrite Co, u32_small by lia. lia.
    + rewrite E7, D2. unfold b1. cbn [buniq].
      pose proof (distinct_le (map mkey A)). pose proof (distinct_le (map mkey C)). rewrite !map_length in *.
      rewrite U, u32_small by lia. lia.
Qed.

Lemma remove_loop_skip x B1 : forall b A R n, bmeta b = A ++ B1 ++ R -> (forall m, In m B1 -> same b x m = false) ->
  remove_loop b x (length A) (length B1 + n) = remove_loop b x (length A + length B1) n.
Proof.
  induction B1 as [|m B1 IH]; intros b A R n M H; [cbn; rewrite Nat.add_0_r; reflexivity|].
  cbn [length Nat.add remove_loop]. rewrite M, nth_error_app2, Nat.sub_diag by lia. cbn [nth_error app].
  rewrite (H m (or_introl eq_refl)).
  replace (length A + 1) with (length (A ++ [m])) by (rewrite app_length; reflexivity).
  rewrite (IH b (A ++ [m]) R n).
  - f_equal. rewrite app_length. cbn. lia.
  - rewrite M, <- app_assoc. reflexivity.
  - intros; apply H; right; trivial.
Qed.

Lemma remove_loop_none b x : forall n p, (forall q m, p <= q < p + n -> nth_error (bmeta b) q = Some m -> same b x m = false) ->
  remove_loop b x p n = b.
Proof.
  induction n as [|n IH]; intros p H; [reflexivity|]. cbn [remove_loop].
  destruct (nth_error (bmeta b) p) as [m|] eqn:E; [|reflexivity].
  rewrite (H p m); [|lia|exact E]. apply IH. intros q m' Hq. apply H. lia.
Qed.

Lemma remove_spec r b k x : valid r b -> exact r k -> removes_stored (items b) (Remove k x) = true ->
  let res := remove b k x in let spec := bag_remove (items b) k x in
  fst res = fst spec /\ items (snd res) = snd spec /\ valid r (snd res) /\ bfull (snd res) = bfull b.
Proof.
  intros V Hk G res spec. cbn [removes_stored] in G.
  destruct (parts_exist r k (bmeta b) Hk (valid_keys _ _ V) (valid_sorted _ _ V)) as (A & B & C & Pt).
  pose proof (has_entry_parts r b k x A B C V Hk Pt) as [HE HK].
  pose proof (find_index_range_parts r b k A B C Hk (valid_keys _ _ V) Pt) as FR.
  destruct (parts_other r k _ A B C Pt Hk (valid_keys _ _ V)) as [NA NC].
  destruct (parts_cross r k _ A B C Pt Hk (valid_keys _ _ V)) as (_ & _ & XB).
  destruct (parts_distinct r k _ A B C Pt Hk (valid_keys _ _ V)) as [D1 D2].
  pose proof (valid_uniq _ _ V) as U. rewrite items_keys, D1 in U.
  pose proof (valid_count _ _ V) as Co. pose proof (valid_bound r b V) as VB.
  pose proof Pt as (M & HA & HB & HC).
  assert (ML : length (bmeta b) = length A + (length B + length C)) by (rewrite M, !app_length; reflexivity).
  unfold res, spec, remove, bag_remove. rewrite FR. cbn [fst snd].
  destruct (existsb (same b x) B) eqn:EX.
  - apply existsb_exists in EX. destruct EX as (m & Im & Em).
    apply in_split in Im. destruct Im as (B1 & B2 & EB).
    rewrite HE.
    assert (LB : length B = length B1 + S (length B2)) by (rewrite EB, app_length; reflexivity).
    destruct (Nat.eqb_spec (length A) (length A + length B)); [lia|].
    replace (length A + length B - length A) with (length B1 + S (length B2)) by lia.
    match goal with |- context [remove_loop ?bb _ _ _] => set (b1 := bb) end.
    assert (HB' : forall m', In m' B -> In m' (bmeta b) /\ equal k (mkey m') = true).
    { intros m' I'. rewrite Forall_forall in HB. split; [|auto]. rewrite M. apply in_or_app. right. apply in_or_app. auto. }
    assert (Xm : read b m = x).
    { unfold same, bytes_eqb in Em. apply andb_true_iff in Em. destruct Em as [_ Em].
      destruct (list_eq_dec ascii_dec x (read b m)); [congruence|discriminate]. }
    (* the other items with this key have other bytes *)
    assert (OB : forall m', In m' B1 \/ In m' B2 -> same b x m' = false).
    { intros m' I'. destruct (same b x m') eqn:E; trivial. exfalso.
      assert (Xm' : read b m' = x).
      { unfold same, bytes_eqb in E. apply andb_true_iff in E. destruct E as [_ E].
        destruct (list_eq_dec ascii_dec x (read b m')); [congruence|discriminate]. }
      pose proof (valid_once _ _ V) as Q. unfold items in Q. rewrite M, EB, !map_app in Q. cbn [map] in Q.
      apply fop_app in Q. destruct Q as (_ & Q & _). apply fop_app in Q. destruct Q as (Q & _ & _).
      apply fop_app in Q. destruct Q as (_ & Q1 & Q2). inversion_clear Q1 as [|? ? Q3 _].
      destruct I' as [I'|I'].
      - specialize (Q2 (mkey m', read b m') (mkey m, read b m) (in_map (fun m => (mkey m, read b m)) _ _ I') (or_introl eq_refl)).
        unfold is_entry in Q2. cbn [fst snd] in Q2. rewrite Xm, Xm' in Q2.
        rewrite XB in Q2 by (rewrite EB; apply in_or_app; cbn; auto). destruct (list_eq_dec ascii_dec x x); [discriminate Q2|congruence].
      - rewrite Forall_forall in Q3. specialize (Q3 (mkey m', read b m') (in_map (fun m => (mkey m, read b m)) _ _ I')).
        unfold is_entry in Q3. cbn [fst snd] in Q3. rewrite Xm, Xm' in Q3.
        rewrite XB in Q3 by (rewrite EB; apply in_or_app; cbn; auto). destruct (list_eq_dec ascii_dec x x); [discriminate Q3|congruence]. }
    assert (M1 : bmeta b1 = (A ++ B1) ++ m :: B2 ++ C).
    { unfold b1. cbn [bmeta]. rewrite M, EB, <- !app_assoc. reflexivity. }
    rewrite (remove_loop_skip x B1 b1 A (m :: B2 ++ C)).
    2:{ rewrite M1, <- app_assoc. reflexivity. }
    2:{ intros m' I'. apply (OB m'). auto. }
    cbn [remove_loop]. rewrite M1, <- app_length, nth_error_app2, Nat.sub_diag by lia. cbn [nth_error].
    change (same b1 x m) with (same b x m). rewrite Em.
    destruct (valid_laid _ _ V) as (cl & P & L & D).
    destruct (remove_at_effect b1 (A ++ B1) m (B2 ++ C) cl M1 P L D) as (E1 & E2 & E3 & E4 & E5 & E6 & E7 & E8).
    set (b2 := remove_at b1 (length (A ++ B1)) m) in *.
    assert (RL : remove_loop b2 x (length (A ++ B1)) (length B2) = b2).
    { apply remove_loop_none. intros q m' Hq Em'.
      assert (Q : nth_error (items b2) q = Some (mkey m', read b2 m')).
      { unfold items. rewrite nth_error_map, Em'. reflexivity. }
      rewrite E2, map_app, nth_error_app2 in Q by (rewrite map_length; lia). rewrite map_length in Q.
      rewrite map_app, nth_error_app1 in Q by (rewrite map_length; lia).
      rewrite nth_error_map in Q. destruct (nth_error B2 (q - length (A ++ B1))) as [m''|] eqn:E''; [|discriminate Q].
      injection Q as Q1 Q2. apply nth_error_In in E''.
      pose proof (OB m'' (or_intror E'')) as S. change (read b1 m'') with (read b m'') in Q2.
      unfold same, bytes_eqb. rewrite <- Q2. destruct (list_eq_dec ascii_dec x (read b m'')) as [Y|Y]; [|apply andb_false_r].
      exfalso. rewrite (same_spec r b x m'' k V) in S.
      - unfold is_entry in S. cbn [fst snd] in S.
        rewrite (proj2 (HB' m'' ltac:(rewrite EB; apply in_or_app; right; right; exact E''))) in S.
        cbn [andb] in S. destruct (list_eq_dec ascii_dec x (read b m'')); [discriminate S|congruence].
      - apply HB'. rewrite EB. apply in_or_app. right. right. exact E''.
      - apply HB'. rewrite EB. apply in_or_app. right. right. exact E''. }
    rewrite RL. split; [reflexivity|].
    assert (IT : items b2 = filter (fun e => negb (is_entry k x e)) (items b)).
    { rewrite E2. unfold items. rewrite M, EB, !map_app, !filter_app. cbn [map filter].
      assert (FK : forall l, (forall m', In m' l -> equal k (mkey m') = false) ->
                filter (fun e => negb (is_entry k x e)) (map (fun m => (mkey m, read b m)) l) = map (fun m => (mkey m, read b m)) l).
      { intros l H. apply filter_all. intros e I. apply in_map_iff in I. destruct I as (m' & <- & I). unfold is_entry. cbn [fst]. rewrite H; trivial. }
      assert (FO : forall l, (forall m', In m' l -> In m' B /\ same b x m' = false) ->
                filter (fun e => negb (is_entry k x e)) (map (fun m => (mkey m, read b m)) l) = map (fun m => (mkey m, read b m)) l).
      { intros l H. apply filter_all. intros e I. apply in_map_iff in I. destruct I as (m' & <- & I). destruct (H m' I) as [H1 H2].
        rewrite <- (same_spec r b x m' k V); [rewrite H2; reflexivity|apply HB', H1|apply HB', H1]. }
      rewrite (FK A NA), (FK C NC), (FO B1), (FO B2).
      - rewrite <- (same_spec r b x m k V), Em; [|apply HB'; rewrite EB; apply in_or_app; cbn; auto|apply HB'; rewrite EB; apply in_or_app; cbn; auto].
        cbn [negb app]. rewrite <- !app_assoc. reflexivity.
      - intros m' I'. split; [rewrite EB; apply in_or_app; cbn; auto|auto].
      - intros m' I'. split; [rewrite EB; apply in_or_app; cbn; auto|auto]. }
    split; [exact IT|]. split; [|exact E5].
    apply (valid_shrunk r b b2 (A ++ B1) [m] (B2 ++ C) V M1 E1 E2 E3 E4 E5).
    + rewrite E8. cbn. change (bavail b1) with (bavail b). lia.
    + rewrite E6. unfold b1. cbn [bcount]. rewrite Co, u32_small by lia. rewrite !app_length. lia.
    + rewrite E7. unfold b1. cbn [buniq].
      assert (Pt' : parts k (A ++ (B1 ++ B2) ++ C) A (B1 ++ B2) C).
      { repeat split; trivial. rewrite EB in HB. rewrite Forall_app in HB. destruct HB as [HB1 HB2]. inversion_clear HB2.
        rewrite Forall_app. auto. }
      assert (OK' : keys_ok r (A ++ (B1 ++ B2) ++ C)).
      { pose proof (valid_keys _ _ V) as OK. rewrite M, EB, !Forall_app in OK. destruct OK as (O1 & (O2 & O3) & O4). inversion_clear O3.
        rewrite !Forall_app. auto. }
      destruct (parts_distinct r k _ A (B1 ++ B2) C Pt' Hk OK') as [D3 _].
      rewrite <- !app_assoc in D3. rewrite <- !app_assoc. rewrite D3.
      pose proof (distinct_le (map mkey A)). pose proof (distinct_le (map mkey C)). rewrite !map_length in *.
      assert (LBB : length (B1 ++ B2) + 1 = length B) by (rewrite app_length; lia).
      destruct B as [|mb B'] eqn:EBB; [destruct B1; discriminate EB|]. rewrite <- EBB in *.
      destruct (Nat.eqb_spec (length A + 1) (length A + length B)) as [Q|Q].
      * destruct (B1 ++ B2) as [|mx l]; [|cbn [length] in LBB; lia]. rewrite U, u32_small by lia. lia.
      * destruct (B1 ++ B2) as [|mx l]; [cbn [length] in LBB; lia|]. rewrite U. lia.
  - rewrite HE in G. cbn [orb] in G. rewrite HK in G. rewrite negb_involutive in G. apply Nat.eqb_eq in G.
    destruct B as [|mb B]; [|discriminate G]. cbn [length]. rewrite Nat.add_0_r, Nat.eqb_refl. cbn [fst snd].
    split; [symmetry; exact HE|]. split; [|split; trivial].
    symmetry. apply filter_all. intros e I.
    unfold has_entry in HE. destruct (is_entry k x e) eqn:E; trivial.
    assert (existsb (is_entry k x) (items b) = true) by (apply existsb_exists; exists e; auto). congruence.
Qed.

(** * Histories *)
Lemma existsb_perm {A} (f : A -> bool) l l' : Permutation l l' -> existsb f l = existsb f l'.
Proof.
  induction 1; cbn; try congruence.
  - rewrite !orb_assoc, (orb_comm (f y)). reflexivity.
Qed.

Lemma room_perm l l' : Permutation l l' -> room l = room l'.
Proof. intros P. unfold room. f_equal. apply list_sum_perm, Permutation_map, P. Qed.

Lemma bag_step_perm size l l' o : Permutation l l' ->
  fst (bag_step size l o) = fst (bag_step size l' o) /\ Permutation (snd (bag_step size l o)) (snd (bag_step size l' o)) /\
  removes_stored l o = removes_stored l' o.
Proof.
  intros P. destruct o as [k x|k x|k]; cbn [bag_step removes_stored].
  - unfold bag_append. rewrite !room_cons, (room_perm l l' P). unfold has_entry. rewrite (existsb_perm _ l l' P).
    destruct (_ && _); cbn; auto.
  - unfold bag_remove, has_entry, has_key. cbn [fst snd]. rewrite !(existsb_perm _ l l' P). split; [reflexivity|]. split; [|reflexivity].
    apply Permutation_filter, P.
  - unfold bag_remove_key, has_key. cbn [fst snd]. rewrite (existsb_perm _ l l' P). split; [reflexivity|]. split; [|reflexivity].
    apply Permutation_filter, P.
Qed.

Lemma step_spec r b o : valid r b -> op_ok r o -> removes_stored (items b) o = true ->
  let res := block_step b o in let spec := bag_step (bfull b) (items b) o in
  fst res = fst spec /\ Permutation (items (snd res)) (snd spec) /\ valid r (snd res) /\ bfull (snd res) = bfull b.
Proof.
  intros V Ho G. destruct o as [k x|k x|k]; cbn [block_step bag_step op_ok] in *.
  - destruct Ho. apply append_spec; trivial.
  - destruct (remove_spec r b k x V Ho G) as (H1 & H2 & H3 & H4). rewrite H2. auto.
  - destruct (remove_key_spec r b k V Ho) as (H1 & H2 & H3 & H4). rewrite H2. auto.
Qed.

Lemma run_spec r os : forall b l, valid r b -> Permutation (items b) l -> Forall (op_ok r) os ->
  all_removes_stored (bfull b) l os = true ->
  let res := run block_step b os in let spec := run (bag_step (bfull b)) l os in
  fst res = fst spec /\ Permutation (items (snd res)) (snd spec) /\ valid r (snd res) /\ bfull (snd res) = bfull b.
Proof.
  induction os as [|o os IH]; intros b l V P Ho G; [cbn; auto|].
  inversion_clear Ho as [|? ? Ho1 Ho2]. cbn [all_removes_stored] in G. apply andb_true_iff in G. destruct G as [G1 G2].
  destruct (bag_step_perm (bfull b) (items b) l o P) as (S1 & S2 & S3). rewrite <- S3 in G1.
  destruct (step_spec r b o V Ho1 G1) as (R1 & R2 & R3 & R4).
  cbn [run]. destruct (block_step b o) as [a b1]. destruct (bag_step (bfull b) l o) as [a' l1].
  cbn [fst snd] in *.
  assert (P1 : Permutation (items b1) l1) by (etransitivity; eassumption).
  rewrite <- R4 in G2. destruct (IH b1 l1 R3 P1 Ho2 G2) as (Q1 & Q2 & Q3 & Q4). rewrite R4 in Q1, Q2, Q4.
  destruct (run block_step b1 os) as [la b2]. destruct (run (bag_step (bfull b)) l1 os) as [la' l2].
  cbn [fst snd] in *. split; [congruence|]. split; [exact Q2|]. split; [exact Q3|]. congruence.
Qed.

Lemma valid_no_overlap r b : valid r b -> no_overlap b.
Proof.
  intros V. destruct (valid_laid _ _ V) as (cl & P & L & D). split; [|split].
  - assert (NO : ForallOrdPairs (fun m m' => moff m + msize m <= moff m' \/ moff m' + msize m' <= moff m) (bmeta b)).
    { assert (Q : ForallOrdPairs (fun m m' => moff m + msize m <= moff m' \/ moff m' + msize m' <= moff m) (map fst cl)).
      { clear P D. revert L. generalize 16. induction cl as [|[m d] cl IH]; intros o L; [constructor|].
        cbn [map fst]. cbn [laid] in L. destruct L as (L1 & L2 & L3 & L). constructor; [|eapply IH; exact L].
        rewrite Forall_forall. intros m' I. apply in_map_iff in I. destruct I as ([m'' d'] & E & I). cbn in E. subst m''.
        pose proof (laid_off _ _ _ _ L I) as (Q & _). left. lia. }
      clear L D V. induction P as [|x l l' P IH|x y l|l l' l'' P1 IH1 P2 IH2]; trivial.
      - inversion_clear Q as [|? ? Q1 Q2]. constructor; [|auto]. eapply Permutation_Forall; eassumption.
      - inversion_clear Q as [|? ? Q1 Q2]. inversion_clear Q1 as [|? ? Q3 Q4]. inversion_clear Q2 as [|? ? Q5 Q6].
        constructor; [constructor; [tauto|trivial]|]. constructor; trivial.
      - auto. }
    intros i j m m' N Hi Hj.
    assert (LT : forall i j m m', i < j -> nth_error (bmeta b) i = Some m -> nth_error (bmeta b) j = Some m' ->
              moff m + msize m <= moff m' \/ moff m' + msize m' <= moff m).
    { clear - NO. intros i j m m' H Hi Hj. revert i j H Hi Hj.
      induction NO as [|x l F NO IH]; intros i j H Hi Hj; [destruct i; discriminate Hi|].
      destruct i as [|i], j as [|j]; try lia.
      - cbn in Hi, Hj. injection Hi as ->. apply nth_error_In in Hj. rewrite Forall_forall in F. apply F, Hj.
      - cbn in Hi, Hj. apply (IH i j); trivial. lia. }
    destruct (lt_dec i j); [eapply LT; eassumption|].
    destruct (LT j i m' m); trivial; [lia|auto|auto].
  - intros m I. destruct (laid_in cl b m P I) as [d Id]. destruct (laid_off _ _ _ _ L Id) as (Q1 & Q2 & _).
    rewrite D. lia.
  - pose proof (valid_space _ _ V). lia.
Qed.

(** * Lookups *)
Lemma lookup_spec r b k : valid r b -> exact r k ->
  (forall x, contains b k x = has_entry (items b) k x) /\
  contains_index b k = has_key (items b) k /\
  get_items b k = map snd (filter (fun e => equal k (fst e)) (items b)) /\
  item_count b k = length (filter (fun e => equal k (fst e)) (items b)) /\
  (forall p, get_item b k p = nth_error (map snd (filter (fun e => equal k (fst e)) (items b))) p).
Proof.
  intros V Hk.
  destruct (parts_exist r k (bmeta b) Hk (valid_keys _ _ V) (valid_sorted _ _ V)) as (A & B & C & Pt).
  pose proof (find_index_range_parts r b k A B C Hk (valid_keys _ _ V) Pt) as FR.
  destruct (parts_other r k _ A B C Pt Hk (valid_keys _ _ V)) as [NA NC].
  pose proof Pt as (M & HA & HB & HC). rewrite Forall_forall in HB.
  assert (SL : slice (length A) (length A + length B) (bmeta b) = B) by (rewrite M; apply slice_app).
  assert (FI : filter (fun e => equal k (fst e)) (items b) = map (fun m => (mkey m, read b m)) B).
  { unfold items. rewrite M, !map_app, !filter_app.
    rewrite (filter_none _ (map _ A)), (filter_all _ (map _ B)), (filter_none _ (map _ C)); cbn [app]; rewrite ?app_nil_r; trivial;
      intros e I; apply in_map_iff in I; destruct I as (m & <- & I); cbn [fst]; auto. }
  assert (MS : map snd (filter (fun e => equal k (fst e)) (items b)) = map (read b) B).
  { rewrite FI, map_map. reflexivity. }
  split; [|split; [|split; [|split]]].
  - intros x. unfold contains. rewrite FR, SL. symmetry. apply (has_entry_parts r b k x A B C V Hk Pt).
  - unfold contains_index. rewrite FR. rewrite (proj2 (has_entry_parts r b k [] A B C V Hk Pt)). f_equal.
    destruct (Nat.eqb_spec (length A) (length A + length B)), (Nat.eqb_spec 0 (length B)); lia || reflexivity.
  - unfold get_items. rewrite FR, SL. symmetry. exact MS.
  - unfold item_count. rewrite FR, FI, map_length. lia.
  - intros p. unfold get_item. rewrite FR, MS. replace (length A + length B - length A) with (length B) by lia.
    rewrite nth_error_map. destruct (Nat.leb_spec (length B) p).
    + rewrite (proj2 (nth_error_None B p)) by lia. reflexivity.
    + f_equal. rewrite M, nth_error_app2 by lia. replace (length A + p - length A) with p by lia.
      rewrite nth_error_app1 by lia. reflexivity.
Qed.

Lemma desc_all r l : keys_ok r l -> desc l -> forall m m' l1 l2, l = l1 ++ m :: l2 -> In m' l2 -> less (mkey m) (mkey m') = false.
Proof.
  intros _ S m m' l1 l2 -> I. apply desc_app in S. destruct S as (_ & S & _). apply desc_cons_inv in S. destruct S as [_ S].
  rewrite Forall_forall in S. auto.
Qed.

Lemma bounds_spec r b : valid r b -> items b <> [] ->
  (exists x, In (max_index b, x) (items b)) /\ (exists x, In (min_index b, x) (items b)) /\
  forall e, In e (items b) -> less (max_index b) (fst e) = false /\ less (fst e) (min_index b) = false.
Proof.
  intros V N. unfold items in *. unfold max_index, min_index. pose proof (valid_sorted _ _ V) as S.
  destruct (bmeta b) as [|m l] eqn:M; [cbn in N; congruence|]. clear N.
  destruct (rev (m :: l)) as [|m' l'] eqn:R.
  { apply (f_equal (@length _)) in R. rewrite rev_length in R. discriminate R. }
  assert (R' : m :: l = rev l' ++ [m']) by (rewrite <- (rev_involutive (m :: l)), R; reflexivity).
  split; [|split].
  - exists (read b m). left. reflexivity.
  - exists (read b m'). rewrite R'. apply (in_map (fun m => (mkey m, read b m))). apply in_or_app. right. left. reflexivity.
  - intros e I. apply in_map_iff in I. destruct I as (x & <- & I). cbn [fst]. split.
    + destruct I as [->|I]; [apply less_irrefl|]. apply desc_cons_inv in S. destruct S as [_ S]. rewrite Forall_forall in S. auto.
    + rewrite R' in I, S. apply in_app_or in I. destruct I as [I|[->|[]]]; [|apply less_irrefl].
      apply desc_app in S. destruct S as (_ & _ & S). apply S; [exact I|left; reflexivity].
Qed.

Lemma restore_spec r b : valid r b -> restore_block b = Ok b.
Proof.
  intros V. pose proof (valid_count _ _ V) as Co. pose proof (valid_space _ _ V) as Sp. pose proof (valid_data_length r b V) as DL.
  unfold restore_block. rewrite Co, Z.ltb_irrefl, Nat2Z.id, Nat.sub_diag. cbn [skipn].
  rewrite <- DL, firstn_all. unfold metadata_size, header_size.
  destruct b as [f d m c u a]. cbn in *. do 2 f_equal; lia.
Qed.

(** * Different keys *)
Section Distinct.
  Variable r : regime.
  Notation okl := (Forall (exact r)).

  Lemma existsb_equal a b l : exact r a -> exact r b -> okl l -> equal a b = true -> existsb (equal a) l = existsb (equal b) l.
  Proof.
    intros Ha Hb Hl E. induction Hl as [|c l Hc Hl IH]; [reflexivity|]. cbn. rewrite IH, (equal_equal r a b c); trivial.
  Qed.

  Lemma distinct_swap_head a b l : exact r a -> exact r b -> okl l -> equal a b = true -> distinct (a :: l) = distinct (b :: l).
  Proof. intros Ha Hb Hl E. cbn. rewrite (existsb_equal a b); trivial. Qed.

  Lemma distinct_perm l l' : okl l -> Permutation l l' -> distinct l = distinct l'.
  Proof.
    intros H P. induction P as [|x l l' P IH|x y l|l l' l'' P1 IH1 P2 IH2]; trivial.
    - inversion_clear H. cbn. rewrite (existsb_perm _ _ _ P), IH; trivial.
    - inversion_clear H as [|? ? Hy H']. inversion_clear H' as [|? ? Hx Hl]. cbn. rewrite (equal_sym x y).
      destruct (equal y x) eqn:E; cbn [orb].
      + rewrite (existsb_equal x y); [destruct (existsb (equal y) l); reflexivity|trivial..|rewrite equal_sym; exact E].
      + destruct (existsb (equal y) l), (existsb (equal x) l); reflexivity.
    - rewrite IH1 by trivial. apply IH2. eapply Permutation_Forall; eassumption.
  Qed.

  Lemma unique_from_spec l : forall p, exact r p -> okl l -> StronglySorted (fun a b => less b a = false) (p :: l) ->
    S (length (unique_from p l)) = distinct (p :: l).
  Proof.
    induction l as [|k l IH]; intros p Hp Hl So; [reflexivity|].
    inversion_clear Hl as [|? ? Hk Hl']. inversion_clear So as [|? ? So' F]. inversion_clear So' as [|? ? So'' F'].
    cbn [unique_from]. inversion_clear F as [|? ? F1 F2]. destruct (equal p k) eqn:E.
    - rewrite IH; trivial.
      + rewrite (distinct_swap_head p k); trivial. cbn [distinct existsb]. rewrite E. reflexivity.
      + constructor; trivial.
    - cbn [length]. rewrite IH; trivial; [|constructor; trivial].
      assert (Q : existsb (equal p) (k :: l) = false).
      { destruct (existsb (equal p) (k :: l)) eqn:X; trivial. apply existsb_exists in X. destruct X as (c & I & X).
        destruct I as [<-|I]; [congruence|]. exfalso.
        rewrite Forall_forall in Hl', F'. pose proof (F' c I) as C1. apply equal_spec in X. destruct X as [X1 X2].
        assert (less k p = false) by exact F1.
        assert (less p k = false) by (apply (le_trans r p c k); auto).
        assert (equal p k = true) by (apply equal_spec; auto). congruence. }
      cbn [distinct]. cbn [distinct] in Q. rewrite Q. reflexivity.
  Qed.

  Lemma sorted_rev {A} (R : A -> A -> Prop) l : StronglySorted R l -> StronglySorted (fun a b => R b a) (rev l).
  Proof.
    induction 1 as [|a l S IH F]; [constructor|]. cbn.
    clear S. revert IH. assert (F' : Forall (R a) (rev l)) by (apply Forall_rev, F). revert F'. generalize (rev l) as q.
    induction q as [|b q IHq]; intros F' S; cbn; [repeat constructor|].
    inversion_clear F' as [|? ? F1 F2]. inversion_clear S as [|? ? S1 S2]. constructor; [auto|].
    rewrite Forall_app. split; trivial. constructor; trivial.
  Qed.

  Lemma unique_keys_spec l : okl l -> StronglySorted (fun a b => less a b = false) l ->
    length (unique_keys (rev l)) = distinct l.
  Proof.
    intros Hl S. rewrite <- (distinct_perm (rev l) l); [|apply Forall_rev, Hl|symmetry; apply Permutation_rev].
    assert (Hl' : okl (rev l)) by (apply Forall_rev, Hl). apply sorted_rev in S.
    destruct (rev l) as [|p q]; [reflexivity|]. cbn [unique_keys length]. inversion_clear Hl'. apply unique_from_spec; trivial.
  Qed.

  (** Two sorted parts share at most the key at which they meet. *)
  Lemma distinct_join l1 z y l2 : okl (l1 ++ z :: y :: l2) -> StronglySorted (fun a b => less a b = false) (l1 ++ z :: y :: l2) ->
    distinct (l1 ++ z :: y :: l2) + (if equal z y then 1 else 0) = distinct (l1 ++ [z]) + distinct (y :: l2).
  Proof.
    induction l1 as [|a l1 IH]; cbn [app]; intros Hl S.
    - inversion_clear Hl as [|? ? Hz Hl']. inversion_clear Hl' as [|? ? Hy Hl2].
      inversion_clear S as [|? ? S' F]. inversion_clear S' as [|? ? _ F2]. inversion_clear F as [|? ? F1 _].
      cbn [distinct existsb]. destruct (equal z y) eqn:E; cbn [orb]; [lia|].
      assert (Q : existsb (equal z) l2 = false).
      { destruct (existsb (equal z) l2) eqn:X; trivial. apply existsb_exists in X. destruct X as (c & I & X). exfalso.
        rewrite Forall_forall in Hl2, F2. apply equal_spec in X. destruct X as [X1 X2].
        assert (less y z = false) by (apply (le_trans r y c z); auto).
        assert (equal z y = true) by (apply equal_spec; auto). congruence. }
      rewrite Q. lia.
    - inversion_clear Hl as [|? ? Ha Hl']. inversion_clear S as [|? ? S' F].
      cbn [distinct].
      assert (Q : existsb (equal a) (l1 ++ z :: y :: l2) = existsb (equal a) (l1 ++ [z])).
      { rewrite !existsb_app. f_equal. cbn [existsb]. destruct (equal a z) eqn:E; [reflexivity|]. cbn [orb].
        destruct (equal a y || existsb (equal a) l2) eqn:X; trivial. exfalso.
        assert (X' : existsb (equal a) (y :: l2) = true) by exact X. apply existsb_exists in X'. destruct X' as (c & I & X').
        apply equal_spec in X'. destruct X' as [X1 X2].
        assert (OKL := Hl'). rewrite Forall_forall in Hl', F.
        assert (Iz : In z (l1 ++ z :: y :: l2)) by (apply in_or_app; right; left; reflexivity).
        assert (Ic : In c (l1 ++ z :: y :: l2)) by (apply in_or_app; right; right; exact I).
        assert (zc : less z c = false).
        { clear - S' I. induction l1 as [|b l1 IH]; cbn in S'; inversion_clear S' as [|? ? S F].
          - rewrite Forall_forall in F. auto.
          - auto. }
        assert (less z a = false) by (apply (le_trans r z c a); auto).
        assert (equal a z = true) by (apply equal_spec; auto). congruence. }
      rewrite Q. specialize (IH Hl' S'). cbn [distinct] in IH. destruct (existsb (equal a) (l1 ++ [z])); lia.
  Qed.
End Distinct.

(** * Splitting *)
Lemma is_entry_sym e e' : is_entry (fst e) (snd e) e' = is_entry (fst e') (snd e') e.
Proof.
  unfold is_entry. rewrite equal_sym. f_equal.
  destruct (list_eq_dec ascii_dec (snd e) (snd e')), (list_eq_dec ascii_dec (snd e') (snd e)); congruence.
Qed.

Lemma once_sym (e e' : pval * list byte) : is_entry (fst e) (snd e) e' = false -> is_entry (fst e') (snd e') e = false.
Proof. rewrite is_entry_sym. trivial. Qed.

Lemma append_one r b k x : valid r b -> exact r k -> x <> [] -> has_entry (items b) k x = false -> room ((k, x) :: items b) <= bfull b ->
  fst (append b k x) = true /\ Permutation (items (snd (append b k x))) ((k, x) :: items b) /\ valid r (snd (append b k x)) /\
  bfull (snd (append b k x)) = bfull b.
Proof.
  intros V Hk Hx He Hr. destruct (append_spec r b k x V Hk Hx) as (H1 & H2 & H3 & H4).
  unfold bag_append in H1, H2. rewrite He in H1, H2. rewrite (proj2 (Nat.leb_le _ _) Hr) in H1, H2. cbn [andb negb fst snd] in H1, H2. auto.
Qed.

Lemma append_refused r b k x : valid r b -> exact r k -> x <> [] -> bfull b < room ((k, x) :: items b) -> append b k x = (false, b).
Proof.
  intros V Hk Hx Hr. unfold append.
  replace (is_memory_available b (length x)) with false; [reflexivity|]. symmetry.
  unfold is_memory_available, metadata_size. apply Nat.leb_gt.
  rewrite room_cons, (room_items r b V) in Hr. pose proof (valid_space _ _ V). lia.
Qed.

Lemma room_app l l' : room (l ++ l') + 16 = room l + room l'.
Proof. unfold room. rewrite map_app, list_sum_app. lia. Qed.

Lemma append_all r b ms : forall nb, valid r b -> valid r nb -> bfull nb = bfull b -> incl ms (bmeta b) ->
  ForallOrdPairs (fun e e' => is_entry (fst e) (snd e) e' = false) (map (fun m => (mkey m, read b m)) ms) ->
  (forall m, In m ms -> has_entry (items nb) (mkey m) (read b m) = false) ->
  room (map (fun m => (mkey m, read b m)) ms ++ items nb) <= bfull b ->
  let nb' := fold_left (fun nb m => snd (append nb (mkey m) (read b m))) ms nb in
  Permutation (items nb') (map (fun m => (mkey m, read b m)) ms ++ items nb) /\ valid r nb' /\ bfull nb' = bfull b.
Proof.
  induction ms as [|m ms IH]; intros nb V Vn F I O N R; cbn [fold_left map app].
  - cbn. auto.
  - cbn [map app] in R, O. inversion_clear O as [|? ? O1 O2].
    assert (Im : In m (bmeta b)) by (apply I; left; reflexivity).
    assert (Hk : exact r (mkey m)) by (pose proof (valid_keys _ _ V) as Q; rewrite Forall_forall in Q; auto).
    destruct (valid_read_length r b m V Im) as [_ Hx].
    assert (R1 : room ((mkey m, read b m) :: items nb) <= bfull nb).
    { rewrite room_cons. rewrite room_cons in R. pose proof (room_app (map (fun m => (mkey m, read b m)) ms) (items nb)) as Q.
      assert (16 <= room (map (fun m => (mkey m, read b m)) ms)) by (unfold room; lia). lia. }
    destruct (append_one r nb (mkey m) (read b m) Vn Hk Hx (N m (or_introl eq_refl)) R1) as (A1 & A2 & A3 & A4).
    destruct (IH (snd (append nb (mkey m) (read b m))) V A3) as (B1 & B2 & B3).
    + congruence.
    + intros z Iz. apply I. right. exact Iz.
    + exact O2.
    + intros m' I'. unfold has_entry. rewrite (existsb_perm _ _ _ A2). cbn [existsb].
      pose proof (N m' (or_intror I')) as Q. unfold has_entry in Q. rewrite Q, orb_false_r.
      rewrite Forall_forall in O1. apply (once_sym (mkey m, read b m) (mkey m', read b m')).
      apply O1. apply (in_map (fun m => (mkey m, read b m)) _ _ I').
    + rewrite (room_perm _ _ (Permutation_app_head _ A2)).
      rewrite (room_perm _ ((mkey m, read b m) :: map (fun m => (mkey m, read b m)) ms ++ items nb)); [exact R|].
      symmetry. apply Permutation_middle.
    + split; [|auto]. rewrite B1, A2. symmetry. apply Permutation_middle.
Qed.

Lemma fop_rev {A} (R : A -> A -> Prop) l : (forall a b, R a b -> R b a) -> ForallOrdPairs R l -> ForallOrdPairs R (rev l).
Proof.
  intros Sy. induction 1 as [|a l F O IH]; [constructor|]. cbn. apply fop_app. split; trivial. split; [repeat constructor|].
  intros x y I [<-|[]]. apply Sy. rewrite Forall_forall in F. apply F. apply in_rev. exact I.
Qed.

Lemma room_firstn n l : room (firstn n l) <= room l.
Proof.
  rewrite <- (firstn_skipn n l) at 2. pose proof (room_app (firstn n l) (skipn n l)) as Q.
  assert (16 <= room (skipn n l)) by (unfold room; lia). lia.
Qed.

Lemma split_spec r b n : valid r b -> n <= length (items b) ->
  exists nb b1, split b n = Ok (nb, b1) /\ Permutation (items nb) (firstn n (items b)) /\ items b1 = skipn n (items b) /\
    valid r nb /\ valid r b1 /\ bfull nb = bfull b /\ bfull b1 = bfull b.
Proof.
  intros V Hn. unfold items in Hn. rewrite map_length in Hn.
  assert (Fu : 16 <= bfull b) by (pose proof (valid_space _ _ V); lia).
  pose proof (valid_count _ _ V) as Co. unfold split.
  destruct (Nat.eqb_spec n 0) as [->|N0].
  { exists (initialize (bfull b)), b. cbn [firstn skipn]. repeat split; trivial; try apply (valid_init r _ Fu (valid_full _ _ V)); apply V. }
  destruct (Z.eqb_spec (Z.of_nat n) (bcount b)) as [E|NE].
  { assert (Hl : n = length (bmeta b)) by lia.
    exists b, (initialize (bfull b)). split; [reflexivity|].
    rewrite firstn_all2, skipn_all2 by (unfold items; rewrite map_length; lia).
    split; [reflexivity|]. split; [reflexivity|]. split; [exact V|]. split; [apply valid_init; trivial; apply (valid_full _ _ V)|]. auto. }
  assert (Hl : n < length (bmeta b)) by lia.
  destruct (nth_error (bmeta b) n) as [y|] eqn:Ey; [|apply nth_error_None in Ey; lia].
  pose proof (valid_keys _ _ V) as OK. pose proof (valid_sorted _ _ V) as So. pose proof (valid_once _ _ V) as On.
  set (B := firstn n (bmeta b)). set (C := skipn n (bmeta b)).
  assert (M : bmeta b = [] ++ B ++ C) by (cbn; symmetry; apply firstn_skipn).
  assert (LB : length B = n) by (unfold B; rewrite firstn_length; lia).
  match goal with |- context [remove_range ?bb 0 n] => set (b0 := bb) end.
  destruct (valid_laid _ _ V) as (cl & P & L & D).
  destruct (remove_range_effect b0 [] B C cl M P L D) as (E1 & E2 & E3 & E4 & E5 & E6 & E7 & E8).
  cbn [length Nat.add] in E1, E2, E3, E4, E5, E6, E7, E8. rewrite LB in E1, E2, E3, E4, E5, E6, E7, E8.
  exists (split_move b n), (remove_range b0 0 n). split; [reflexivity|].
  assert (FI : firstn n (items b) = map (fun m => (mkey m, read b m)) B) by (unfold items, B; apply firstn_map).
  assert (SI : skipn n (items b) = map (fun m => (mkey m, read b m)) C) by (unfold items, C; apply skipn_map).
  destruct (append_all r b (rev B) (initialize (bfull b)) V (valid_init r _ Fu (valid_full _ _ V)) eq_refl) as (S1 & S2 & S3).
  { intros z I. apply in_rev in I. rewrite M. apply in_or_app. right. apply in_or_app. left. exact I. }
  { rewrite map_rev. apply fop_rev; [apply once_sym|]. unfold items in On. rewrite M in On. cbn [app] in On. rewrite map_app in On.
    apply fop_app in On. tauto. }
  { reflexivity. }
  { rewrite app_nil_r, map_rev, <- (room_perm _ _ (Permutation_rev _)), <- FI.
    pose proof (room_firstn n (items b)). rewrite (room_items r b V) in *. pose proof (valid_space _ _ V). lia. }
  split. { rewrite FI. unfold split_move. fold B. rewrite S1, app_nil_r, map_rev. symmetry. apply Permutation_rev. }
  split. { rewrite SI. exact E2. }
  split. { exact S2. }
  split; [|split; [exact S3|exact E5]].
  apply (valid_shrunk r b _ [] B C V M E1 E2 E3 E4 E5).
  - rewrite E8, LB. reflexivity.
  - rewrite E6. unfold b0. cbn [bcount length]. rewrite Co, u32_small.
    + unfold C. rewrite skipn_length. lia.
    + pose proof (valid_bound r b V). lia.
  - rewrite E7. unfold b0. cbn [buniq app].
    assert (KK : Forall (exact r) (map mkey (bmeta b))) by (rewrite Forall_map; exact OK).
    assert (KS : StronglySorted (fun a b => less a b = false) (map mkey (bmeta b))) by (apply desc_keys, So).
    assert (KB : Forall (exact r) (map mkey B) /\ StronglySorted (fun a b => less a b = false) (map mkey B)).
    { cbn [app] in M. split.
      - rewrite M, map_app, Forall_app in KK. tauto.
      - apply desc_keys. rewrite M in So. apply desc_app in So. tauto. }
    fold B. rewrite map_rev. rewrite (unique_keys_spec r _ (proj1 KB) (proj2 KB)).
    assert (EC : exists C', C = y :: C').
    { unfold C. rewrite <- (firstn_skipn n (bmeta b)) in Ey. rewrite nth_error_app2 in Ey by (rewrite firstn_length; lia).
      rewrite firstn_length in Ey. replace (n - Nat.min n (length (bmeta b))) with 0 in Ey by lia.
      destruct (skipn n (bmeta b)) as [|c C']; [discriminate Ey|]. cbn in Ey. injection Ey as ->. exists C'. reflexivity. }
    destruct EC as [C' EC].
    assert (EB : exists B' z, B = B' ++ [z]).
    { destruct B as [|z0 B0] eqn:EB; [cbn in LB; lia|]. destruct (exists_last (l := z0 :: B0)) as (B' & z & Q); [discriminate|].
      exists B', z. exact Q. }
    destruct EB as (B' & z & EB).
    cbn [app] in M. rewrite M, EB, EC, <- app_assoc, map_app in KK, KS. cbn [app map] in KK, KS.
    pose proof (distinct_join r _ _ _ _ KK KS) as DJ.
    pose proof (valid_uniq _ _ V) as U. rewrite items_keys in U.
    assert (DM : map mkey (bmeta b) = map mkey B' ++ mkey z :: mkey y :: map mkey C').
    { rewrite M, EB, EC, <- app_assoc, map_app. reflexivity. }
    rewrite DM in U.
    rewrite EB, map_app, rev_app_distr. cbn [map rev app unique_keys].
    rewrite EC. cbn [map]. pose proof (distinct_le (map mkey B' ++ mkey z :: mkey y :: map mkey C')) as DL.
    pose proof (valid_bound r b V) as VB. rewrite <- DM, map_length in DL. rewrite DM in DL.
    rewrite equal_sym. rewrite U, u32_small.
    + destruct (equal (mkey z) (mkey y)); lia.
    + destruct (equal (mkey z) (mkey y)); lia.
Qed.

Definition item_at (b : block) (m : meta) : pval * list byte := (mkey m, read b m).

Lemma cut_spec r b n u : valid r b -> n < length (bmeta b) ->
  u = Z.of_nat (distinct (map mkey (skipn n (bmeta b)))) ->
  items (remove_range {| bfull := bfull b; bdata := bdata b; bmeta := bmeta b;
                         bcount := u32 (bcount b - Z.of_nat n); buniq := u; bavail := bavail b |} 0 n) = skipn n (items b) /\
  valid r (remove_range {| bfull := bfull b; bdata := bdata b; bmeta := bmeta b;
                         bcount := u32 (bcount b - Z.of_nat n); buniq := u; bavail := bavail b |} 0 n) /\
  bfull (remove_range {| bfull := bfull b; bdata := bdata b; bmeta := bmeta b;
                         bcount := u32 (bcount b - Z.of_nat n); buniq := u; bavail := bavail b |} 0 n) = bfull b.
Proof.
  intros V Hn Hu. pose proof (valid_count _ _ V) as Co.
  set (B := firstn n (bmeta b)). set (C := skipn n (bmeta b)).
  assert (M : bmeta b = [] ++ B ++ C) by (cbn; symmetry; apply firstn_skipn).
  assert (LB : length B = n) by (unfold B; rewrite firstn_length; lia).
  match goal with |- context [remove_range ?bb 0 n] => set (b0 := bb) end.
  destruct (valid_laid _ _ V) as (cl & P & L & D).
  destruct (remove_range_effect b0 [] B C cl M P L D) as (E1 & E2 & E3 & E4 & E5 & E6 & E7 & E8).
  cbn [length Nat.add] in E1, E2, E3, E4, E5, E6, E7, E8. rewrite LB in E1, E2, E3, E4, E5, E6, E7, E8.
  assert (SI : skipn n (items b) = map (fun m => (mkey m, read b m)) C) by (unfold items, C; apply skipn_map).
  split. { rewrite SI. exact E2. }
  split; [|exact E5].
  apply (valid_shrunk r b _ [] B C V M E1 E2 E3 E4 E5).
  - rewrite E8, LB. reflexivity.
  - rewrite E6. unfold b0. cbn [bcount length]. rewrite Co, u32_small.
    + unfold C. rewrite skipn_length. lia.
    + pose proof (valid_bound r b V). lia.
  - rewrite E7. unfold b0. cbn [buniq app]. exact Hu.
Qed.

Lemma uniques_end_spec r l : forall p ic count moved, exact r p -> Forall (exact r) (map mkey l) ->
  StronglySorted (fun a b => less a b = false) (p :: map mkey l) -> 1 <= ic <= count ->
  count - ic + 1 < distinct (p :: map mkey l) ->
  exists l1 y l2, l = l1 ++ y :: l2 /\ uniques_end p l ic count moved = moved + S (length l1) /\
    distinct (p :: map mkey l1) = count - ic + 1 /\ Forall (fun z => equal z (mkey y) = false) (p :: map mkey l1).
Proof.
  induction l as [|m l IH]; intros p ic count moved Hp Hl S Hc Hd.
  - cbn in Hd. lia.
  - cbn [map] in *. inversion_clear Hl as [|? ? Hm Hl']. inversion_clear S as [|? ? S' F]. cbn [uniques_end].
    rewrite (proj2 (Nat.leb_le ic count)) by lia. unfold not_equal. rewrite (equal_sym (mkey m) p).
    destruct (equal p (mkey m)) eqn:E; cbn [negb].
    + assert (S2 : StronglySorted (fun a b => less a b = false) (p :: map mkey l)).
      { constructor; [inversion_clear S'; trivial|]. inversion_clear F; trivial. }
      assert (Dm : distinct (p :: mkey m :: map mkey l) = distinct (p :: map mkey l)).
      { rewrite (distinct_swap_head r p (mkey m) (map mkey l)) by trivial. cbn [distinct existsb]. rewrite E. reflexivity. }
      rewrite Dm in Hd. destruct (IH p ic count (moved + 1) Hp Hl' S2 Hc Hd) as (l1 & y & l2 & E1 & E2 & E3 & E4).
      assert (Hl1 : Forall (exact r) (map mkey l1)) by (rewrite E1, map_app, Forall_app in Hl'; tauto).
      assert (Hy : exact r (mkey y)).
      { rewrite E1, map_app, Forall_app in Hl'. destruct Hl' as [_ Hl']. inversion_clear Hl'; trivial. }
      exists (m :: l1), y, l2. rewrite E1. split; [reflexivity|]. split; [rewrite <- E1, E2; cbn [length]; lia|]. split.
      * rewrite <- E3. rewrite (distinct_swap_head r p (mkey m) (map mkey l1)) by trivial.
        cbn [map distinct existsb]. rewrite E. reflexivity.
      * inversion_clear E4 as [|? ? E5 E6]. cbn [map]. constructor; [exact E5|]. constructor; [|exact E6].
        rewrite <- (equal_equal r p (mkey m) (mkey y)); trivial.
    + assert (Q : existsb (equal p) (mkey m :: map mkey l) = false).
      { destruct (existsb (equal p) (mkey m :: map mkey l)) eqn:X; trivial. apply existsb_exists in X. destruct X as (c & I & X).
        destruct I as [<-|I]; [congruence|]. exfalso. inversion_clear S' as [|? ? _ F']. inversion_clear F as [|? ? F1 _].
        rewrite Forall_forall in Hl', F'. pose proof (F' c I) as C1. apply equal_spec in X. destruct X as [X1 X2].
        assert (less (mkey m) p = false) by (apply (le_trans r (mkey m) c p); auto).
        assert (equal p (mkey m) = true) by (apply equal_spec; auto). congruence. }
      assert (Dm : distinct (p :: mkey m :: map mkey l) = Datatypes.S (distinct (mkey m :: map mkey l))) by (cbn [distinct] in *; rewrite Q; reflexivity).
      rewrite Dm in Hd. destruct (Nat.eq_dec ic count) as [->|Nc].
      * exists [], m, l. split; [reflexivity|]. split.
        { destruct l as [|m' l']; cbn [uniques_end length]; [lia|]. rewrite (proj2 (Nat.leb_gt (count + 1) count)) by lia. lia. }
        split; [cbn; lia|]. repeat constructor. exact E.
      * destruct (IH (mkey m) (ic + 1) count (moved + 1) Hm Hl' S') as (l1 & y & l2 & E1 & E2 & E3 & E4); [lia|lia|].
        exists (m :: l1), y, l2. rewrite E1. split; [reflexivity|]. split; [rewrite <- E1, E2; cbn [length]; lia|].
        assert (Q1 : existsb (equal p) (mkey m :: map mkey l1) = false).
        { rewrite E1, map_app in Q. change (mkey m :: map mkey l1 ++ map mkey (y :: l2)) with ((mkey m :: map mkey l1) ++ map mkey (y :: l2)) in Q.
          rewrite existsb_app in Q. apply orb_false_iff in Q. tauto. }
        split.
        { assert (Dl : distinct (p :: map mkey (m :: l1)) = Datatypes.S (distinct (mkey m :: map mkey l1))) by (cbn [map distinct] in *; rewrite Q1; reflexivity).
          rewrite Dl, E3. lia. }
        constructor; [|exact E4].
        destruct (equal p (mkey y)) eqn:X; trivial.
        assert (existsb (equal p) (mkey m :: map mkey l) = true); [|congruence].
        apply existsb_exists. exists (mkey y). split; trivial. right. rewrite E1, map_app. apply in_or_app. right. left. reflexivity.
Qed.

Lemma distinct_app_apart l1 l2 : (forall a b, In a l1 -> In b l2 -> equal a b = false) -> distinct (l1 ++ l2) = distinct l1 + distinct l2.
Proof.
  induction l1 as [|a l1 IH]; intros H; [reflexivity|]. cbn [app distinct]. rewrite existsb_app.
  assert (E : existsb (equal a) l2 = false).
  { destruct (existsb (equal a) l2) eqn:X; trivial. apply existsb_exists in X. destruct X as (c & I & X).
    rewrite (H a c (or_introl eq_refl) I) in X. discriminate. }
  rewrite E, orb_false_r, IH by (intros; apply H; [right|]; trivial). destruct (existsb (equal a) l1); lia.
Qed.

Lemma split_uniques_spec r b n : valid r b -> n <= distinct (map fst (items b)) ->
  exists nb b1, split_uniques b n = Ok (nb, b1) /\ Permutation (items nb ++ items b1) (items b) /\
    distinct (map fst (items nb)) = n /\
    (forall e e', In e (items nb) -> In e' (items b1) -> less (fst e') (fst e) = true) /\
    valid r nb /\ valid r b1 /\ bfull nb = bfull b /\ bfull b1 = bfull b.
Proof.
  intros V Hn.
  assert (Fu : 16 <= bfull b) by (pose proof (valid_space _ _ V); lia).
  pose proof (valid_init r _ Fu (valid_full _ _ V)) as VI.
  pose proof (valid_uniq _ _ V) as Un. unfold split_uniques.
  destruct (Nat.eqb_spec n 0) as [->|N0].
  { exists (initialize (bfull b)), b. split; [reflexivity|]. split; [reflexivity|]. split; [reflexivity|].
    split; [intros e e' []|]. auto. }
  destruct (Z.eqb_spec (Z.of_nat n) (buniq b)) as [E|NE].
  { exists b, (initialize (bfull b)). split; [reflexivity|]. cbn [items initialize bmeta map]. rewrite app_nil_r.
    split; [reflexivity|]. split; [lia|]. split; [intros e e' _ []|]. auto. }
  assert (Hlt : n < distinct (map fst (items b))) by lia.
  rewrite items_keys in Hlt.
  pose proof (valid_keys _ _ V) as OK. pose proof (valid_sorted _ _ V) as So. pose proof (valid_once _ _ V) as On.
  destruct (bmeta b) as [|m0 l] eqn:M; [cbn in Hlt; lia|].
  assert (KS : StronglySorted (fun a b => less a b = false) (map mkey (m0 :: l))) by (apply desc_keys; exact So).
  assert (KO : Forall (exact r) (map mkey (m0 :: l))) by (rewrite Forall_map; exact OK).
  cbn [map] in KS, KO. inversion_clear KO as [|? ? K0 KO'].
  destruct (uniques_end_spec r l (mkey m0) 1 n 0 K0 KO' KS) as (l1 & y & l2 & E1 & E2 & E3 & E4).
  { lia. }
  { cbn [map] in Hlt. lia. }
  rewrite E2. cbn [Nat.add Nat.eqb].
  assert (Fn : firstn (S (length l1)) (m0 :: l) = m0 :: l1).
  { cbn [firstn]. rewrite E1, firstn_app, firstn_all, Nat.sub_diag. cbn [firstn]. rewrite app_nil_r. reflexivity. }
  assert (Sn : skipn (S (length l1)) (m0 :: l) = y :: l2).
  { cbn [skipn]. rewrite E1, skipn_app, skipn_all, Nat.sub_diag. reflexivity. }
  assert (Ap : forall a c, In a (mkey m0 :: map mkey l1) -> In c (map mkey (y :: l2)) -> less c a = true).
  { intros a c Ia Ic. rewrite Forall_forall in E4. pose proof (E4 a Ia) as Q.
    rewrite E1, map_app in KS. change (mkey m0 :: map mkey l1 ++ map mkey (y :: l2)) with ((mkey m0 :: map mkey l1) ++ map mkey (y :: l2)) in KS.
    assert (KO : Forall (exact r) ((mkey m0 :: map mkey l1) ++ map mkey (y :: l2))).
    { rewrite E1, map_app in KO'. constructor; trivial. }
    rewrite Forall_forall in KO.
    assert (Ha : exact r a) by (apply KO, in_or_app; auto).
    assert (Hc : exact r c) by (apply KO, in_or_app; auto).
    assert (Hy : exact r (mkey y)) by (apply KO, in_or_app; right; left; reflexivity).
    assert (G : less a (mkey y) = false /\ less (mkey y) c = false).
    { clear - KS Ia Ic. revert KS Ia. generalize (mkey m0 :: map mkey l1) as q. induction q as [|z q IH]; intros S []; cbn in S; inversion_clear S as [|? ? S' F].
      - subst z. split.
        + rewrite Forall_forall in F. apply F, in_or_app. right. left. reflexivity.
        + clear IH F. assert (S'' : StronglySorted (fun a b => less a b = false) (map mkey (y :: l2))).
          { clear - S'. induction q; cbn in *; trivial. inversion_clear S'; auto. }
          cbn in S'', Ic. inversion_clear S'' as [|? ? _ F]. rewrite Forall_forall in F. destruct Ic as [<-|Ic]; [apply less_irrefl|auto].
      - apply IH; trivial. }
    destruct G as [G1 G2].
    assert (Ly : less (mkey y) a = true).
    { destruct (less (mkey y) a) eqn:X; trivial. assert (equal a (mkey y) = true) by (apply equal_spec; auto). congruence. }
    apply (le_less r c (mkey y) a); trivial. }
  assert (Dj : distinct (map mkey (m0 :: l)) = n + distinct (map mkey (y :: l2))).
  { rewrite E1. change (m0 :: l1 ++ y :: l2) with ((m0 :: l1) ++ y :: l2). rewrite map_app, distinct_app_apart.
    - cbn [map] in *. lia.
    - intros a c Ia Ic. pose proof (Ap a c Ia Ic) as Q. destruct (equal a c) eqn:X; trivial. apply equal_spec in X. destruct X. congruence. }
  rewrite <- M in Fn, Sn, Dj. rewrite <- M.
  rewrite Fn.
  destruct (append_all r b (m0 :: l1) (initialize (bfull b)) V VI eq_refl) as (S1 & S2 & S3).
  { intros z I. rewrite <- Fn in I. rewrite <- (firstn_skipn (S (length l1)) (bmeta b)). apply in_or_app. auto. }
  { unfold items in On. rewrite <- (firstn_skipn (S (length l1)) (bmeta b)), map_app, Fn in On. apply fop_app in On. tauto. }
  { reflexivity. }
  { change (items (initialize (bfull b))) with (@nil (pval * list byte)). rewrite app_nil_r, <- Fn, <- firstn_map.
    fold (items b). pose proof (room_firstn (S (length l1)) (items b)). rewrite (room_items r b V) in *. pose proof (valid_space _ _ V). lia. }
  assert (S1' : Permutation (items (fold_left (fun nb m => snd (append nb (mkey m) (read b m))) (m0 :: l1) (initialize (bfull b))))
                  (firstn (S (length l1)) (items b))).
  { rewrite S1. change (items (initialize (bfull b))) with (@nil (pval * list byte)). rewrite app_nil_r. unfold items. rewrite firstn_map, Fn. reflexivity. }
  assert (Ll : S (length l1) < length (bmeta b)).
  { rewrite M, E1. cbn [length]. rewrite app_length. cbn [length]. lia. }
  destruct (cut_spec r b (S (length l1)) (u32 (buniq b - Z.of_nat n)) V Ll) as (C1 & C2 & C3).
  { rewrite Sn, Un, items_keys, Dj, u32_small; [lia|]. pose proof (valid_bound r b V).
    pose proof (distinct_le (map mkey (bmeta b))) as Q. rewrite map_length, Dj in Q. lia. }
  eexists _, _. split; [reflexivity|]. split; [rewrite C1, S1', firstn_skipn; reflexivity|].
  split. { rewrite <- (distinct_perm r (map fst (firstn (S (length l1)) (items b)))).
           - unfold items. rewrite firstn_map, Fn, map_map. cbn [fst]. change (fun x : meta => mkey x) with mkey. cbn [map]. lia.
           - unfold items. rewrite firstn_map, Fn, map_map. cbn [fst]. rewrite E1, map_app, Forall_app in KO'. constructor; tauto.
           - apply Permutation_map. symmetry. exact S1'. }
  split; [|auto].
  intros e e' I I'. apply (Permutation_in _ S1') in I. rewrite C1 in I'. unfold items in I, I'. rewrite firstn_map, Fn in I. rewrite skipn_map, Sn in I'.
  apply in_map_iff in I, I'. destruct I as (q & <- & I), I' as (q' & <- & I'). cbn [fst]. apply Ap.
  - change (mkey m0 :: map mkey l1) with (map mkey (m0 :: l1)). apply in_map, I.
  - apply in_map, I'.
Qed.

(** * Splitting and appending *)
Lemma align_spec n : n <= align_to_block_size n < n + N.to_nat DEFAULT_BLOCK_SIZE.
Proof.
  unfold align_to_block_size. generalize (eq_refl : DEFAULT_BLOCK_SIZE = 262144%N). generalize DEFAULT_BLOCK_SIZE as D. intros D ED.
  assert (D <> 0)%N by (subst; discriminate).
  pose proof (N.div_mod (N.of_nat n + (D - 1)) D H) as Q.
  pose proof (N.mod_bound_pos (N.of_nat n + (D - 1)) D ltac:(lia) ltac:(lia)) as Q2.
  set (q := ((N.of_nat n + (D - 1)) / D)%N) in *. set (m := ((N.of_nat n + (D - 1)) mod D)%N) in *.
  clearbody q m. rewrite N.mul_comm in Q. lia.
Qed.

Lemma firstn_succ {A} (l : list A) : forall n x, nth_error l n = Some x -> firstn (S n) l = firstn n l ++ [x].
Proof.
  induction l as [|a l IH]; intros [|n] x E; try discriminate E.
  - cbn in E. injection E as ->. reflexivity.
  - cbn in E. cbn [firstn app]. f_equal. apply (IH n x E).
Qed.

Lemma mid_point_spec l half : forall p acc n s, mid_point l half p acc = (n, s) ->
  exists j, n = p + j /\ j <= length l /\ s = acc + list_sum (map (fun m => msize m + 24) (firstn j l)) /\
    (j < length l -> half <= s) /\ (0 < j -> acc + list_sum (map (fun m => msize m + 24) (firstn (j - 1) l)) < half).
Proof.
  induction l as [|m l IH]; intros p acc n s E; cbn [mid_point] in E.
  - injection E as <- <-. exists 0. cbn. lia.
  - destruct (Nat.ltb_spec acc half) as [H|H].
    + destruct (IH _ _ _ _ E) as (j & -> & J1 & -> & J2 & J3). exists (S j). split; [lia|]. split; [cbn; lia|].
      cbn [firstn map length]. change metadata_size with 24.
      change (list_sum (msize m + 24 :: map (fun m => msize m + 24) (firstn j l)))
        with (msize m + 24 + list_sum (map (fun m => msize m + 24) (firstn j l))).
      split; [lia|]. split; [intros; change metadata_size with 24 in J2; lia|]. intros _.
      replace (S j - 1) with j by lia. destruct j as [|j]; [cbn; lia|].
      cbn [firstn map].
      change (list_sum (msize m + 24 :: map (fun m => msize m + 24) (firstn j l)))
        with (msize m + 24 + list_sum (map (fun m => msize m + 24) (firstn j l))).
      specialize (J3 ltac:(lia)). replace (S j - 1) with j in J3 by lia. change metadata_size with 24 in J3. lia.
    + injection E as <- <-. exists 0. cbn. lia.
Qed.

Lemma room_metas r b l : valid r b -> incl l (bmeta b) ->
  room (map (fun m => (mkey m, read b m)) l) = 16 + list_sum (map (fun m => msize m + 24) l).
Proof.
  intros V I. unfold room. f_equal. rewrite map_map. f_equal. apply map_ext_in. intros m Im. cbn [snd].
  rewrite (proj1 (valid_read_length r b m V (I m Im))). reflexivity.
Qed.

Lemma has_entry_app l l' k x : has_entry (l ++ l') k x = has_entry l k x || has_entry l' k x.
Proof. apply existsb_app. Qed.

Lemma has_entry_perm l l' k x : Permutation l l' -> has_entry l k x = has_entry l' k x.
Proof. apply existsb_perm. Qed.

Lemma items_above r b n : valid r b -> above (firstn n (items b)) (skipn n (items b)).
Proof.
  intros V e e' I I'. unfold items in I, I'. rewrite firstn_map in I. rewrite skipn_map in I'.
  apply in_map_iff in I, I'. destruct I as (m & <- & I), I' as (m' & <- & I'). cbn [fst].
  pose proof (valid_sorted _ _ V) as S. rewrite <- (firstn_skipn n (bmeta b)) in S. apply desc_app in S. destruct S as (_ & _ & S). auto.
Qed.

Lemma above_perm l l1 l' l1' : Permutation l1 l -> Permutation l1' l' -> above l l' -> above l1 l1'.
Proof. intros P P' H e e' I I'. apply H; eapply Permutation_in; eassumption. Qed.

Lemma items_exact r b e : valid r b -> In e (items b) -> exact r (fst e).
Proof.
  intros V I. apply in_map_iff in I. destruct I as (m & <- & I). pose proof (valid_keys _ _ V) as H. rewrite Forall_forall in H. exact (H m I).
Qed.

Lemma limit_min_least r k : exact r k -> less k limit_min = false.
Proof. intros H. destruct k; try reflexivity; cbn in H |- *; try (destruct b; reflexivity); try (destruct f; reflexivity). Qed.

(** Small items: the split point is inside the block. *)
Lemma quarter_mid r b k x n acc : valid r b -> Forall (fun e => quarter (bfull b) (snd e)) (items b) -> quarter (bfull b) x ->
  bfull b < room ((k, x) :: items b) -> mid_point (bmeta b) (Nat.div2 (bfull b)) 0 0 = (n, acc) ->
  0 < n < length (bmeta b) /\ bfull b <= 2 * acc + 1 /\ room (firstn n (items b)) = 16 + acc /\
  room (skipn n (items b)) + room (firstn n (items b)) = room (items b) + 16.
Proof.
  intros V Q Qx NF MP. unfold quarter in *.
  destruct (mid_point_spec _ _ _ _ _ _ MP) as (j & J & J1 & J2 & J3 & J4). change (0 + j) with j in J. subst j.
  change (0 + ?z) with z in *.
  set (half := Nat.div2 (bfull b)) in *.
  assert (Hh : 2 * half <= bfull b <= 2 * half + 1).
  { unfold half. rewrite (Nat.div2_odd (bfull b)) at 2 3. destruct (Nat.odd (bfull b)); cbn [Nat.b2n]; lia. }
  clearbody half.
  assert (IF : forall i, incl (firstn i (bmeta b)) (bmeta b)) by (intros i z I; rewrite <- (firstn_skipn i (bmeta b)); apply in_or_app; auto).
  assert (Rf : forall i, room (firstn i (items b)) = 16 + list_sum (map (fun m => msize m + 24) (firstn i (bmeta b)))).
  { intros i. unfold items. rewrite firstn_map. apply (room_metas r b); trivial. }
  assert (Rs : room (skipn n (items b)) + room (firstn n (items b)) = room (items b) + 16).
  { rewrite <- (firstn_skipn n (items b)) at 3. pose proof (room_app (firstn n (items b)) (skipn n (items b))). lia. }
  pose proof (room_items r b V) as Ri. pose proof (valid_space _ _ V) as Sp.
  rewrite room_cons in NF.
  assert (N0 : 0 < n).
  { destruct n as [|n]; [|lia]. exfalso. cbn [firstn map] in J2. change (list_sum []) with 0 in J2.
    destruct (Nat.eq_dec (length (bmeta b)) 0) as [E|E]; [|lia].
    assert (items b = []) as Ei by (unfold items; destruct (bmeta b); [reflexivity|discriminate E]).
    rewrite Ei in NF. unfold room in NF. cbn [map] in NF. change (list_sum []) with 0 in NF. lia. }
  assert (En : n < length (bmeta b)).
  { destruct (Nat.eq_dec n (length (bmeta b))) as [En|En]; [|lia].
    exfalso. assert (FA : firstn n (items b) = items b) by (apply firstn_all2; unfold items; rewrite map_length; lia).
    rewrite FA in *. specialize (Rf n). rewrite FA in Rf.
    destruct n as [|n]; [lia|].
    specialize (J4 ltac:(lia)). replace (S n - 1) with n in J4 by lia.
    assert (exists m, nth_error (bmeta b) n = Some m) as [m Em].
    { destruct (nth_error (bmeta b) n) eqn:E; [eauto|]. apply nth_error_None in E. lia. }
    rewrite (firstn_succ (bmeta b) n m Em), map_app, list_sum_app in Rf. cbn [map] in Rf.
    change (list_sum [msize m + 24]) with (msize m + 24 + 0) in Rf.
    rewrite Forall_forall in Q. pose proof (nth_error_In _ _ Em) as Im.
    specialize (Q (mkey m, read b m) (in_map (fun m => (mkey m, read b m)) _ _ Im)). cbn [snd] in Q.
    rewrite (proj1 (valid_read_length r b m V Im)) in Q. lia. }
  specialize (J3 En). specialize (Rf n). lia.
Qed.

Lemma split_append_spec r b k x : valid r b -> exact r k -> x <> [] -> has_entry (items b) k x = false ->
  (Z.of_nat (length x) + 40 + 262144 <= 2 ^ 32)%Z ->
  exists t f s, split_append b k x = Ok (t, f, s) /\
    Permutation (items t ++ items f ++ items_opt s) (if estimate_right b k x then (k, x) :: items b else items b) /\
    valid r t /\ valid r f /\ (forall b', s = Some b' -> valid r b') /\
    above (items f) (items t) /\ above (items_opt s) (items f) /\ above (items_opt s) (items t) /\
    bfull t = bfull b /\
    (bfull f = bfull b \/ bfull f = align_to_block_size (length x + 40)) /\ (forall b', s = Some b' -> bfull b' = bfull b) /\
    (Forall (fun e => quarter (bfull b) (snd e)) (items b) -> quarter (bfull b) x -> bfull b < room ((k, x) :: items b) ->
       items t <> [] /\ items f <> [] /\ (forall b', s = Some b' -> items b' <> [])).
Proof.
  intros V Hk Hx He Hs.
  assert (FN : forall n, 0 < n -> n < length (items b) -> firstn n (items b) <> [] /\ skipn n (items b) <> []).
  { intros n N1 N2. split; intros E; apply (f_equal (@length _)) in E; rewrite ?firstn_length, ?skipn_length in E; cbn in E; lia. }
  assert (PN : forall (l l' : list (pval * list byte)), Permutation l l' -> l' <> [] -> l <> []).
  { intros l l' P N E. subst l. apply Permutation_nil in P. contradiction. }
  assert (SPL : forall n, n <= length (items b) -> exists nb b1, split b n = Ok (nb, b1) /\
    Permutation (items nb) (firstn n (items b)) /\ items b1 = skipn n (items b) /\ valid r nb /\ valid r b1 /\ bfull nb = bfull b /\ bfull b1 = bfull b /\
    has_entry (items nb) k x = false /\ has_entry (items b1) k x = false /\ above (items nb) (items b1)).
  { intros n Hn. destruct (split_spec r b n V Hn) as (nb & b1 & S1 & S2 & S3 & S4 & S5 & S6 & S7).
    exists nb, b1. rewrite <- (firstn_skipn n (items b)), has_entry_app in He. apply orb_false_iff in He. destruct He as [He1 He2].
    split; [exact S1|]. split; [exact S2|]. split; [exact S3|]. split; [exact S4|]. split; [exact S5|]. split; [exact S6|]. split; [exact S7|].
    split; [rewrite (has_entry_perm _ _ _ _ S2); exact He1|]. split; [rewrite S3; exact He2|].
    apply (above_perm (firstn n (items b)) _ (skipn n (items b))); trivial; [rewrite S3; reflexivity|apply (items_above r b n V)]. }
  unfold split_append, estimate_right. destruct (decide b k (length x)) as [n w] eqn:D. unfold decide in D.
  destruct (mid_point (bmeta b) (Nat.div2 (bfull b)) 0 0) as [n' acc] eqn:MP. injection D as -> D.
  destruct (mid_point_spec _ _ _ _ _ _ MP) as (j & J & J1 & J2 & J3 & J4). change (0 + j) with j in J. subst j.
  assert (Hn : n <= length (items b)) by (unfold items; rewrite map_length; exact J1).
  assert (NE : forall m, nth_error (bmeta b) n = Some m -> exists x', nth_error (items b) n = Some (mkey m, x')).
  { intros m E. exists (read b m). unfold items. rewrite nth_error_map, E. reflexivity. }
  destruct w as [[|]|].
  - (* to this block *)
    destruct (SPL n Hn) as (nb & b1 & S1 & S2 & S3 & S4 & S5 & S6 & S7 & H1 & H2 & AB). rewrite S1. cbn [rbind].
    assert (KA : above (items nb) [(k, x)]).
    { intros e e' I [<-|[]]. cbn [fst]. apply (Permutation_in _ S2) in I.
      assert (Ie : In e (items b)) by (rewrite <- (firstn_skipn n (items b)); apply in_or_app; auto).
      destruct (nth_error (bmeta b) n) as [m|] eqn:Em.
      - destruct (less (mkey m) k) eqn:Lk. { destruct (_ <? _) in D; discriminate D. }
        destruct (NE m eq_refl) as [x' Ex].
        assert (Im : In (mkey m, x') (skipn n (items b))).
        { rewrite <- (firstn_skipn n (items b)) in Ex. rewrite nth_error_app2 in Ex by (rewrite firstn_length; lia).
          apply nth_error_In in Ex. exact Ex. }
        apply (le_trans r (fst e) (mkey m) k); trivial.
        + apply (items_exact r b e V Ie).
        + apply (items_exact r b (mkey m, x') V). rewrite <- (firstn_skipn n (items b)). apply in_or_app. auto.
        + exact (items_above r b n V e (mkey m, x') I Im).
      - destruct (greater k (min_index b) && less k (max_index b)); [discriminate D|].
        destruct (less limit_min k) eqn:Lk. { destruct (_ <? _) in D; discriminate D. }
        apply (le_trans r (fst e) limit_min k); trivial; [apply (items_exact r b e V Ie)|constructor|].
        apply (limit_min_least r). apply (items_exact r b e V Ie). }
    destruct (Nat.leb_spec (room ((k, x) :: skipn n (items b))) (bfull b)) as [R|R].
    + rewrite <- S3, <- S7 in R. destruct (append_one r b1 k x S5 Hk Hx H2 R) as (A1 & A2 & A3 & A4).
      eexists _, nb, None. split; [reflexivity|]. cbn [items_opt]. rewrite app_nil_r. split.
      { rewrite A2, S2, S3. cbn [app]. apply Permutation_cons; trivial. rewrite Permutation_app_comm, firstn_skipn. reflexivity. }
      split; [exact A3|]. split; [exact S4|]. split; [discriminate|]. split.
      { intros e e' I I'. apply (Permutation_in _ A2) in I'. destruct I' as [<-|I']; [apply (KA e _ I); left; reflexivity|apply AB; trivial]. }
      split; [intros ? ? []|]. split; [intros ? ? []|]. split; [congruence|]. split; [left; congruence|].
      split; [discriminate|]. intros Q1 Q2 Q3. destruct (quarter_mid r b k x n acc V Q1 Q2 Q3 MP) as (HN & _).
      destruct (FN n) as [FN1 FN2]; [lia|unfold items; rewrite map_length; lia|]. split; [apply (PN _ _ A2); discriminate|]. split; [apply (PN _ _ S2 FN1)|discriminate].
    + rewrite <- S3, <- S7 in R. rewrite (append_refused r b1 k x S5 Hk Hx R). cbn [snd].
      eexists _, nb, None. split; [reflexivity|]. cbn [items_opt]. rewrite app_nil_r. split.
      { rewrite S2, S3. rewrite Permutation_app_comm, firstn_skipn. reflexivity. }
      split; [exact S5|]. split; [exact S4|]. split; [discriminate|]. split; [exact AB|].
      split; [intros ? ? []|]. split; [intros ? ? []|]. split; [congruence|]. split; [left; congruence|].
      split; [discriminate|]. intros Q1 Q2 Q3. destruct (quarter_mid r b k x n acc V Q1 Q2 Q3 MP) as (HN & _).
      destruct (FN n) as [FN1 FN2]; [lia|unfold items; rewrite map_length; lia|]. split; [rewrite S3; exact FN2|]. split; [apply (PN _ _ S2 FN1)|discriminate].
  - (* to the new block *)
    destruct (SPL n Hn) as (nb & b1 & S1 & S2 & S3 & S4 & S5 & S6 & S7 & H1 & H2 & AB). rewrite S1. cbn [rbind].
    assert (KA : above [(k, x)] (items b1)).
    { intros e e' [<-|[]] I. cbn [fst]. rewrite S3 in I.
      assert (Ie : In e' (items b)) by (rewrite <- (firstn_skipn n (items b)); apply in_or_app; auto).
      destruct (nth_error (bmeta b) n) as [m|] eqn:Em.
      - destruct (less (mkey m) k) eqn:Lk. 2:{ destruct (_ <? _) in D; discriminate D. }
        destruct (NE m eq_refl) as [x' Ex].
        assert (SK : exists q, skipn n (items b) = (mkey m, x') :: q).
        { rewrite <- (firstn_skipn n (items b)) in Ex. rewrite nth_error_app2 in Ex by (rewrite firstn_length; lia).
          rewrite firstn_length in Ex. replace (n - Nat.min n (length (items b))) with 0 in Ex by lia.
          destruct (skipn n (items b)) as [|z q]; [discriminate Ex|]. cbn in Ex. injection Ex as ->. eauto. }
        destruct SK as [q SK].
        assert (Em' : exact r (mkey m)).
        { apply (items_exact r b (mkey m, x') V). rewrite <- (firstn_skipn n (items b)), SK. apply in_or_app. right. left. reflexivity. }
        apply less_asym with (r := r); trivial; [apply (items_exact r b e' V Ie)|].
        rewrite SK in I. destruct I as [<-|I]; [exact Lk|].
        apply (le_less r (fst e') (mkey m) k); trivial; [apply (items_exact r b e' V Ie)|].
        apply (items_above r b (n + 1) V (mkey m, x') e').
        + replace (n + 1) with (S n) by lia.
          rewrite (firstn_succ (items b) n (mkey m, x')) by exact Ex. apply in_or_app. right. left. reflexivity.
        + rewrite <- (skipn_skipn 1 n), SK. exact I.
      - apply nth_error_None in Em. rewrite skipn_all2 in I by (unfold items; rewrite map_length; exact Em). destruct I. }
    destruct (Nat.leb_spec (room ((k, x) :: firstn n (items b))) (bfull b)) as [R|R].
    + assert (R' : room ((k, x) :: items nb) <= bfull nb).
      { rewrite S6. rewrite (room_perm _ ((k, x) :: firstn n (items b))); trivial. apply Permutation_cons; trivial. }
      destruct (append_one r nb k x S4 Hk Hx H1 R') as (A1 & A2 & A3 & A4).
      eexists _, _, None. split; [reflexivity|]. cbn [items_opt]. rewrite app_nil_r. split.
      { rewrite A2, S2, S3. rewrite <- Permutation_middle. apply Permutation_cons; trivial. rewrite Permutation_app_comm, firstn_skipn. reflexivity. }
      split; [exact S5|]. split; [exact A3|]. split; [discriminate|]. split.
      { intros e e' I I'. apply (Permutation_in _ A2) in I. destruct I as [<-|I]; [apply (KA _ e'); trivial; left; reflexivity|apply AB; trivial]. }
      split; [intros ? ? []|]. split; [intros ? ? []|]. split; [congruence|]. split; [left; congruence|].
      split; [discriminate|]. intros Q1 Q2 Q3. destruct (quarter_mid r b k x n acc V Q1 Q2 Q3 MP) as (HN & _).
      destruct (FN n) as [FN1 FN2]; [lia|unfold items; rewrite map_length; lia|]. split; [rewrite S3; exact FN2|]. split; [apply (PN _ _ A2); discriminate|discriminate].
    + assert (R' : bfull nb < room ((k, x) :: items nb)).
      { rewrite S6. rewrite (room_perm _ ((k, x) :: firstn n (items b))); trivial. apply Permutation_cons; trivial. }
      rewrite (append_refused r nb k x S4 Hk Hx R'). cbn [snd].
      eexists _, nb, None. split; [reflexivity|]. cbn [items_opt]. rewrite app_nil_r. split.
      { rewrite S2, S3. rewrite Permutation_app_comm, firstn_skipn. reflexivity. }
      split; [exact S5|]. split; [exact S4|]. split; [discriminate|]. split; [exact AB|].
      split; [intros ? ? []|]. split; [intros ? ? []|]. split; [congruence|]. split; [left; congruence|].
      split; [discriminate|]. intros Q1 Q2 Q3. destruct (quarter_mid r b k x n acc V Q1 Q2 Q3 MP) as (HN & _).
      destruct (FN n) as [FN1 FN2]; [lia|unfold items; rewrite map_length; lia|]. split; [rewrite S3; exact FN2|]. split; [apply (PN _ _ S2 FN1)|discriminate].
  - (* neither *)
    clear D.
    destruct (parts_exist r k (bmeta b) Hk (valid_keys _ _ V) (valid_sorted _ _ V)) as (A & B & C & Pt).
    pose proof (find_index_range_parts r b k A B C Hk (valid_keys _ _ V) Pt) as FR. rewrite FR. cbn [fst].
    pose proof Pt as (M & PA & PB & PC).
    set (fr := align_to_block_size (length x + header_size + metadata_size)).
    assert (Fr : length x + 40 <= fr < length x + 40 + N.to_nat DEFAULT_BLOCK_SIZE).
    { unfold fr. pose proof (align_spec (length x + header_size + metadata_size)) as Q. unfold header_size, metadata_size in Q |- *. lia. }
    assert (Frz : (16 <= fr)%nat /\ (Z.of_nat fr < 2 ^ 32)%Z).
    { unfold DEFAULT_BLOCK_SIZE in Fr. lia. }
    destruct (append_one r (initialize fr) k x (valid_init r _ (proj1 Frz) (proj2 Frz)) Hk Hx eq_refl) as (F1 & F2 & F3 & F4).
    { rewrite room_cons. unfold room. cbn. lia. }
    change (items (initialize fr)) with (@nil (pval * list byte)) in F2.
    assert (F5 : bfull (snd (append (initialize fr) k x)) = align_to_block_size (length x + 40)).
    { rewrite F4. cbn [bfull initialize]. unfold fr, header_size, metadata_size. f_equal. lia. }
    assert (FI : firstn (length A) (items b) = map (fun m => (mkey m, read b m)) A).
    { unfold items. rewrite M, firstn_map, firstn_length_app. reflexivity. }
    assert (SI : skipn (length A) (items b) = map (fun m => (mkey m, read b m)) (B ++ C)).
    { unfold items. rewrite M, skipn_map, skipn_length_app. reflexivity. }
    assert (KA1 : above (firstn (length A) (items b)) [(k, x)]).
    { intros e e' I [<-|[]]. rewrite FI in I. apply in_map_iff in I. destruct I as (m & <- & I). cbn [fst].
      rewrite Forall_forall in PA. specialize (PA m I). apply less_asym with (r := r); trivial.
      pose proof (valid_keys _ _ V) as Q. rewrite Forall_forall in Q. apply Q. rewrite M. apply in_or_app. auto. }
    assert (KA2 : above [(k, x)] (skipn (length A) (items b))).
    { intros e e' [<-|[]] I. rewrite SI in I. apply in_map_iff in I. destruct I as (m & <- & I). cbn [fst].
      apply in_app_or in I. destruct I as [I|I].
      - rewrite Forall_forall in PB. specialize (PB m I). apply equal_spec in PB. tauto.
      - rewrite Forall_forall in PC. specialize (PC m I). apply less_asym with (r := r); trivial.
        pose proof (valid_keys _ _ V) as Q. rewrite Forall_forall in Q. apply Q. rewrite M. apply in_or_app. right. apply in_or_app. auto. }
    destruct (Nat.eqb_spec (length A) 0) as [LA|LA].
    + eexists _, _, None. split; [reflexivity|]. cbn [items_opt]. rewrite app_nil_r. split.
      { rewrite F2. symmetry. apply Permutation_cons_append. }
      split; [exact V|]. split; [exact F3|]. split; [discriminate|]. split.
      { rewrite LA in KA2. cbn [skipn] in KA2. apply (above_perm _ _ _ _ F2 (Permutation_refl _)). exact KA2. }
      split; [intros ? ? []|]. split; [intros ? ? []|]. split; [reflexivity|]. split; [right; exact F5|].
      split; [discriminate|]. intros Q1 Q2 Q3. split; [|split; [apply (PN _ _ F2); discriminate|discriminate]].
      intros E. rewrite E in Q3. unfold room, quarter in *. cbn in Q3. lia.
    + assert (HA : length A <= length (items b)) by (unfold items; rewrite M, map_length, !app_length; lia).
      destruct (SPL (length A) HA) as (nb & b1 & S1 & S2 & S3 & S4 & S5 & S6 & S7 & H1 & H2 & AB). rewrite S1. cbn [rbind].
      assert (KN : above (items nb) [(k, x)]) by (apply (above_perm _ _ _ _ S2 (Permutation_refl _)), KA1).
      assert (KB : above [(k, x)] (items b1)) by (rewrite S3; exact KA2).
      assert (NA : firstn (length A) (items b) <> []).
      { intros E. apply (f_equal (@length _)) in E. rewrite firstn_length in E. cbn in E. lia. }
      assert (NB1 : bfull b1 < room ((k, x) :: items b1) -> quarter (bfull b) x -> items b1 <> []).
      { intros R1 Q2 E. rewrite E in R1. unfold room, quarter in *. cbn in R1. lia. }
      destruct (le_lt_dec (room ((k, x) :: items b1)) (bfull b1)) as [R1|R1].
      * destruct (append_one r b1 k x S5 Hk Hx H2 R1) as (A1 & A2 & A3 & A4).
        destruct (append b1 k x) as [d b2]. cbn [fst snd] in *. subst d.
        eexists _, nb, None. split; [reflexivity|]. cbn [items_opt]. rewrite app_nil_r. split.
        { rewrite A2, S2, S3. cbn [app]. apply Permutation_cons; trivial. rewrite Permutation_app_comm, firstn_skipn. reflexivity. }
        split; [exact A3|]. split; [exact S4|]. split; [discriminate|]. split.
        { intros e e' I I'. apply (Permutation_in _ A2) in I'. destruct I' as [<-|I']; [apply (KN e _ I); left; reflexivity|apply AB; trivial]. }
        split; [intros ? ? []|]. split; [intros ? ? []|]. split; [congruence|]. split; [left; congruence|].
        split; [discriminate|]. intros Q1 Q2 Q3. split; [apply (PN _ _ A2); discriminate|]. split; [apply (PN _ _ S2 NA)|discriminate].
      * rewrite (append_refused r b1 k x S5 Hk Hx R1).
        destruct (le_lt_dec (room ((k, x) :: items nb)) (bfull nb)) as [R2|R2].
        -- destruct (append_one r nb k x S4 Hk Hx H1 R2) as (A1 & A2 & A3 & A4).
           destruct (append nb k x) as [d nb2]. cbn [fst snd] in *. subst d.
           eexists _, _, None. split; [reflexivity|]. cbn [items_opt]. rewrite app_nil_r. split.
           { rewrite A2, S2, S3. rewrite <- Permutation_middle. apply Permutation_cons; trivial. rewrite Permutation_app_comm, firstn_skipn. reflexivity. }
           split; [exact S5|]. split; [exact A3|]. split; [discriminate|]. split.
           { intros e e' I I'. apply (Permutation_in _ A2) in I. destruct I as [<-|I]; [apply (KB _ e'); trivial; left; reflexivity|apply AB; trivial]. }
           split; [intros ? ? []|]. split; [intros ? ? []|]. split; [congruence|]. split; [left; congruence|].
           split; [discriminate|]. intros Q1 Q2 Q3. split; [apply NB1; trivial|]. split; [apply (PN _ _ A2); discriminate|discriminate].
        -- rewrite (append_refused r nb k x S4 Hk Hx R2).
           eexists _, _, (Some nb). split; [reflexivity|]. cbn [items_opt]. split.
           { rewrite F2, S2, S3. cbn [app]. rewrite <- Permutation_middle. apply Permutation_cons; trivial.
             rewrite Permutation_app_comm, firstn_skipn. reflexivity. }
           split; [exact S5|]. split; [exact F3|]. split; [intros b' Q; injection Q as <-; exact S4|].
           split; [apply (above_perm _ _ _ _ F2 (Permutation_refl _)), KB|].
           split; [apply (above_perm _ _ _ _ (Permutation_refl _) F2), KN|]. split; [exact AB|]. split; [exact S7|].
           split; [right; exact F5|]. split; [intros b' Q; injection Q as <-; exact S6|]. intros Q1 Q2 Q3.
           split; [apply NB1; trivial|]. split; [apply (PN _ _ F2); discriminate|intros b' Q; injection Q as <-; apply (PN _ _ S2 NA)].
Qed.

Lemma quarter_estimate r b k x : valid r b -> Forall (fun e => quarter (bfull b) (snd e)) (items b) -> quarter (bfull b) x ->
  bfull b < room ((k, x) :: items b) -> estimate_right b k x = true.
Proof.
  intros V Q Qx NF. unfold estimate_right.
  destruct (decide b k (length x)) as [n w] eqn:D. unfold decide in D.
  destruct (mid_point (bmeta b) (Nat.div2 (bfull b)) 0 0) as [n' acc] eqn:MP. injection D as -> D.
  destruct (quarter_mid r b k x n acc V Q Qx NF MP) as (Hn & Hh & Rf & Rs).
  pose proof (room_items r b V) as Ri. pose proof (valid_space _ _ V) as Sp.
  unfold quarter in Qx. rewrite room_cons in NF.
  destruct w as [[|]|]; [| |reflexivity]; apply Nat.leb_le; rewrite room_cons.
  - lia.
  - assert (exists m, nth_error (bmeta b) n = Some m) as [m Em].
    { destruct (nth_error (bmeta b) n) eqn:E; [eauto|]. apply nth_error_None in E. lia. }
    rewrite Em in D. destruct (less (mkey m) k); [|destruct (_ <? _) in D; discriminate D].
    unfold metadata_size in D.
    destruct (Nat.ltb_spec (length x + (acc + (msize m + 24))) (bfull b - 24)); [lia|discriminate D].
Qed.

(** * Merging *)
Lemma laid_shift d off cl : laid off cl -> laid (off + d) (map (fun c => (add_offset d (fst c), snd c)) cl).
Proof.
  revert off. induction cl as [|[m x] cl IH]; intros off L; [exact I|]. cbn in *. destruct L as (L1 & L2 & L3 & L4).
  split; [lia|]. split; [exact L2|]. split; [exact L3|]. replace (off + d + length x) with (off + length x + d) by lia. apply IH, L4.
Qed.

Lemma distinct_pos k l : 1 <= distinct (k :: l).
Proof.
  revert k. induction l as [|a l IH]; intros k; [cbn; lia|]. specialize (IH a).
  change (1 <= (if existsb (equal k) (a :: l) then distinct (a :: l) else S (distinct (a :: l)))). destruct (existsb _ _); lia.
Qed.

Lemma merge_spec r b o : valid r b -> valid r o -> items b <> [] -> above (items o) (items b) ->
  (forall e, In e (items o) -> has_entry (items b) (fst e) (snd e) = false) ->
  room (items o ++ items b) <= bfull b ->
  exists b', merge b o = Ok b' /\ items b' = items o ++ items b /\ valid r b' /\ bfull b' = bfull b.
Proof.
  intros V Vo Nb Ab On Ro. unfold merge.
  pose proof (valid_count _ _ V) as Co. pose proof (valid_count _ _ Vo) as Coo.
  destruct (Z.eqb_spec (bcount o) 0) as [E|E].
  { exists b. split; [reflexivity|]. assert (E' : items o = []) by (unfold items; destruct (bmeta o); [reflexivity|cbn in Coo; lia]).
    rewrite E'. auto. }
  assert (No : items o <> []) by (unfold items; destruct (bmeta o); [cbn in Coo; lia|discriminate]).
  destruct (bounds_spec r b V Nb) as ((xb & Ixb) & _ & _).
  destruct (bounds_spec r o Vo No) as (_ & (xo & Ixo) & _).
  assert (GE : greater_equal (min_index o) (max_index b) = true).
  { unfold greater_equal. pose proof (Ab _ _ Ixo Ixb) as Q. cbn [fst] in Q. rewrite Q. reflexivity. }
  rewrite GE. eexists. split; [reflexivity|].
  pose proof (room_app (items o) (items b)) as RA. rewrite (room_items r b V), (room_items r o Vo) in RA.
  pose proof (valid_space _ _ V) as Sp. pose proof (valid_space _ _ Vo) as Spo. pose proof (valid_full _ _ V) as Fu.
  destruct (valid_laid _ _ V) as (cl & P & L & D). destruct (valid_laid _ _ Vo) as (clo & Po & Lo & Do).
  set (b' := {| bfull := _ |}).
  assert (I' : items b' = items o ++ items b).
  { unfold items, b'. cbn [bmeta]. rewrite map_app, map_map. f_equal.
    - apply map_ext_in. intros m Im. cbn [add_offset mkey]. f_equal. unfold read. cbn [bdata add_offset moff msize].
      destruct (laid_in clo o m Po Im) as [d Id]. destruct (laid_off _ _ _ _ Lo Id) as (O1 & O2 & O3 & O4).
      unfold bytes_at, header_size. f_equal. replace (moff m + length (bdata b) - 16) with (length (bdata b) + (moff m - 16)) by lia.
      rewrite <- skipn_skipn, skipn_length_app. reflexivity.
    - apply map_ext_in. intros m Im. f_equal. unfold read. cbn [bdata].
      destruct (laid_in cl b m P Im) as [d Id]. rewrite (laid_read cl m d _ L D Id). apply (laid_read_ext cl m d _ _ L D Id). }
  assert (K' : map mkey (bmeta b') = map mkey (bmeta o) ++ map mkey (bmeta b)).
  { rewrite <- !items_keys, I', map_app. reflexivity. }
  assert (So : StronglySorted (fun a b => less a b = false) (map mkey (bmeta b'))).
  { rewrite K'. pose proof (valid_sorted _ _ V) as S1. pose proof (valid_sorted _ _ Vo) as S2. apply desc_keys in S1, S2.
    clear - S1 S2 Ab. rewrite <- !items_keys in *. 
    assert (Ab' : forall a c, In a (map fst (items o)) -> In c (map fst (items b)) -> less a c = false).
    { intros a c Ia Ic. apply in_map_iff in Ia, Ic. destruct Ia as (e & <- & Ia), Ic as (e' & <- & Ic). auto. }
    revert S2 Ab'. generalize (map fst (items o)) as q. induction q as [|a q IH]; intros S2 Ab'; cbn [app]; [exact S1|].
    inversion_clear S2 as [|? ? S2' F]. constructor.
    - apply IH; trivial. intros; apply Ab'; [right|]; trivial.
    - rewrite Forall_app. split; trivial. apply Forall_forall. intros c Ic. apply Ab'; [left; reflexivity|exact Ic]. }
  assert (KE : Forall (exact r) (map mkey (bmeta b'))).
  { rewrite K', Forall_app. split; rewrite Forall_map; [apply (valid_keys _ _ Vo)|apply (valid_keys _ _ V)]. }
  split; [exact I'|]. split; [|reflexivity]. constructor.
  - rewrite Forall_map in KE. exact KE.
  - apply desc_keys. exact So.
  - rewrite I'. apply fop_app. split; [apply (valid_once _ _ Vo)|]. split; [apply (valid_once _ _ V)|].
    intros e e' Ie Ie'. pose proof (On e Ie) as Q. unfold has_entry in Q.
    destruct (is_entry (fst e) (snd e) e') eqn:X; trivial.
    assert (existsb (is_entry (fst e) (snd e)) (items b) = true); [|congruence]. apply existsb_exists. eauto.
  - exists (cl ++ map (fun c => (add_offset (length (bdata b)) (fst c), snd c)) clo). split; [|split].
    + unfold b'. cbn [bmeta]. rewrite map_app, map_map. cbn [fst]. rewrite Permutation_app_comm. apply Permutation_app; [|exact P].
      rewrite <- (map_map fst (add_offset (length (bdata b)))). apply Permutation_map, Po.
    + apply laid_app. split; [exact L|]. rewrite <- D. apply laid_shift, Lo.
    + unfold b'. cbn [bdata]. rewrite map_app, map_map, concat_app. cbn [snd]. rewrite D, Do. reflexivity.
  - unfold b'. cbn [bdata bavail bmeta bfull]. rewrite !app_length, map_length. unfold metadata_size. rewrite Coo, Nat2Z.id. lia.
  - exact Fu.
  - unfold b'. cbn [bcount bmeta]. rewrite app_length, map_length, Co, Coo, u32_small; lia.
  - rewrite I', map_app, !items_keys. unfold b'. cbn [buniq].
    rewrite (valid_uniq _ _ V), (valid_uniq _ _ Vo), !items_keys.
    pose proof (distinct_le (map mkey (bmeta b))) as D1. pose proof (distinct_le (map mkey (bmeta o))) as D2. rewrite map_length in D1, D2.
    unfold min_index, max_index in *.
    destruct (bmeta b) as [|m l] eqn:Mb; [unfold items in Nb; rewrite Mb in Nb; cbn in Nb; congruence|].
    destruct (rev (bmeta o)) as [|m' l'] eqn:R.
    { apply (f_equal (@length _)) in R. rewrite rev_length in R. unfold items in No. destruct (bmeta o); [cbn in No; congruence|discriminate R]. }
    assert (R' : bmeta o = rev l' ++ [m']) by (rewrite <- (rev_involutive (bmeta o)), R; reflexivity).
    assert (LO : map mkey (bmeta o) = map mkey (rev l') ++ [mkey m']) by (rewrite R', map_app; reflexivity).
    rewrite LO in D2 |- *. rewrite K', LO, <- app_assoc in So, KE. rewrite <- app_assoc. cbn [map app] in *.
    pose proof (distinct_join r _ _ _ _ KE So) as DJ.
    rewrite u32_small; destruct (equal (mkey m') (mkey m)); try lia.
    all: pose proof (distinct_pos (mkey m) (map mkey l)).
    all: lia.
Qed.
