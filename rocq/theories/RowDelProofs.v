From Verif Require Import Bytes Outcome VersionModel VersionSpec VersionProofs RowDelModel RowDelSpec.
From Coq Require Import ZifyBool ZifyNat ZifyN Permutation FinFun.
Local Open Scope nat_scope.

(** [d]: the deleted rows *)
Definition vec_ok (w : N) (d : nat -> bool) (i : nat) (o : option chunk) : Prop :=
  match o with
  | None => forall p, p < CAP -> d (R i p) = false
  | Some (Const _ _) => False
  | Some (Vec v) => same_inserted v = true /\ insert_id v = 0%N /\
      (forall p, p < CAP -> if d (R i p) then (1 <= deleted v p <= w)%N else deleted v p = NOT_DELETED_ID) /\
      (any_deleted v = false -> forall p, p < CAP -> d (R i p) = false)
  end.
Definition GI (g : rgroup) (d : nat -> bool) : Prop :=
  match mgr g with
  | None => forall r, d r = false
  | Some m => (1 <= ver g)%N /\ forall i, vec_ok (ver g) d i (get_chunk m i)
  end.

Lemma vec_mono w w' d i o : (w <= w')%N -> vec_ok w d i o -> vec_ok w' d i o.
Proof.
  intros H. destruct o as [[a b|v]|]; cbn; [auto| |auto]. intros (A & B & C & D). csplit; auto. intros p Hp. specialize (C p Hp). destruct (d (R i p)); [lia|exact C].
Qed.

(** scanning *)
Lemma select_sound g d i n : GI g d -> (ver g < NOT_DELETED_ID)%N -> n <= CAP -> rg_select g i n = filter (fun p => negb (d (R i p))) (seq 0 n).
Proof.
  unfold GI, rg_select. intros G V Hn. destruct (mgr g) as [m|].
  2:{ rewrite filter_all; [reflexivity|]. intros p _. rewrite G. reflexivity. }
  destruct G as [G1 G]. unfold select. specialize (G i). destruct (get_chunk m i) as [[a b|v]|]; cbn [vec_ok chunk_select] in *; [contradiction| |].
  - destruct G as (A & B & C & D). rewrite A, B. cbn [andb]. unfold use_version. cbn [tid start_time].
    replace (0 <? ver g)%N with true by lia. cbn [orb negb]. destruct (any_deleted v) eqn:E; cbn [negb].
    + apply filter_eq. intros p Hp. apply in_seq in Hp. specialize (C p ltac:(lia)). destruct (d (R i p)); lia.
    + symmetry. apply filter_all. intros p Hp. apply in_seq in Hp. rewrite D by (auto; lia). reflexivity.
  - symmetry. apply filter_all. intros p Hp. apply in_seq in Hp. rewrite G by lia. reflexivity.
Qed.

(** one flush *)
Lemma loop_outcome t : (t < NOT_DELETED_ID)%N -> forall rows d n,
  (forall p, In p rows -> p < CAP) ->
  match delete_loop t rows d n with
  | (d', Some k) => (forall p, In p rows -> d p = NOT_DELETED_ID \/ d p = t) /\ (forall p, d' p = if existsb (Nat.eqb p) rows then t else d p)
  | (d', None) => (exists p, In p rows /\ d p <> NOT_DELETED_ID /\ d p <> t) /\
                  (forall p, d' p = d p \/ (In p rows /\ d p = NOT_DELETED_ID /\ d' p = t))
  end.
Proof.
  intros Ht. induction rows as [|r rs IH]; intros d n H; cbn [delete_loop existsb].
  - split; [intros p []|reflexivity].
  - assert (H' : forall p, In p rs -> p < CAP) by (intros p Hp; apply H; right; exact Hp).
    destruct (d r =? t)%N eqn:E.
    + apply N.eqb_eq in E. specialize (IH d n H'). destruct (delete_loop t rs d n) as [d' [k|]].
      * destruct IH as [I1 I2]. split.
        -- intros p [<-|Hp]; [right; exact E|apply I1, Hp].
        -- intros p. rewrite I2. destruct (p =? r) eqn:F; [|reflexivity]. apply Nat.eqb_eq in F. subst. cbn [orb]. destruct (existsb _ _); reflexivity.
      * destruct IH as [(p & P1 & P2 & P3) I2]. split; [exists p; split; [right; exact P1|auto]|]. intros q. destruct (I2 q) as [Q|(Q1 & Q2 & Q3)]; [left; exact Q|right; csplit; auto; right; exact Q1].
    + destruct (d r =? NOT_DELETED_ID)%N eqn:F; cbn [negb].
      * apply N.eqb_eq in F. specialize (IH (fill d r (S r) t) (S n) H'). destruct (delete_loop t rs (fill d r (S r) t) (S n)) as [d' [k|]].
        -- destruct IH as [I1 I2]. split.
           ++ intros p [<-|Hp]; [left; exact F|]. specialize (I1 p Hp). rewrite fill_one in I1. destruct (p =? r) eqn:G; [apply Nat.eqb_eq in G; subst; left; exact F|exact I1].
           ++ intros p. rewrite I2, fill_one. destruct (p =? r); cbn [orb]; [destruct (existsb _ _); reflexivity|reflexivity].
        -- destruct IH as [(p & P1 & P2 & P3) I2]. split.
           ++ exists p. rewrite fill_one in P2, P3. destruct (p =? r); [congruence|]. csplit; auto. right. exact P1.
           ++ intros q. specialize (I2 q). rewrite fill_one in I2. destruct (q =? r) eqn:G.
              ** apply Nat.eqb_eq in G. subst q. right. csplit; [left; reflexivity|exact F|]. destruct I2 as [I2|(_ & _ & I2)]; exact I2.
              ** destruct I2 as [I2|(J1 & J2 & J3)]; [left; exact I2|right; csplit; auto; right; exact J1].
      * split; [|left; reflexivity]. exists r. csplit; [left; reflexivity| |]; lia.
Qed.

Lemma loop_count t (Ht : (t < NOT_DELETED_ID)%N) rows d n d' k : (forall p, In p rows -> p < CAP /\ (d p = NOT_DELETED_ID \/ d p = t)) ->
  delete_loop t rows d n = (d', Some k) -> k = n + length (filter (fun p => existsb (Nat.eqb p) rows && (d p =? NOT_DELETED_ID)%N) (seq 0 CAP)).
Proof. intros H E. destruct (delete_loop_ok t Ht rows d n H) as (d1 & E1 & _). revert E1. generalize (filter (fun p => existsb (Nat.eqb p) rows && (d p =? NOT_DELETED_ID)%N) (seq 0 CAP)). intros L E1. rewrite E in E1. injection E1 as _ E1. exact E1. Qed.
Lemma count_ext (f g : nat -> bool) l : (forall x, In x l -> f x = g x) -> length (filter f l) = length (filter g l).
Proof. intros H. f_equal. apply filter_eq. exact H. Qed.

Definition add (d : nat -> bool) (i : nat) (rows : list nat) : nat -> bool := fun r => d r || in_vector i rows r.

Lemma flush_ok g d i rows : GI g d -> (ver g + 1 < NOT_DELETED_ID)%N -> (forall p, In p rows -> p < CAP) ->
  exists g' o, rg_flush g i rows = Ok (g', o) /\ r_count g' = r_count g /\ ver g' = (ver g + 1)%N /\
   match o with
   | Some k => (forall p, In p rows -> d (R i p) = false) /\ GI g' (add d i rows) /\
               k = length (filter (fun p => existsb (Nat.eqb p) rows) (seq 0 CAP))
   | None => (exists p, In p rows /\ d (R i p) = true) /\ exists d', GI g' d' /\ (forall r, d r = true -> d' r = true) /\ (forall r, d' r = true -> d r = true \/ in_vector i rows r = true)
   end.
Proof.
  intros G V H. unfold rg_flush. assert (NM : ((ver g + 1) mod 2 ^ 64 = ver g + 1)%N).
  { apply N.mod_small. change NOT_DELETED_ID with 18446744073709551614%N in V. change (2 ^ 64)%N with 18446744073709551616%N. lia. }
  rewrite NM. set (m := match mgr g with Some m => m | None => [] end). set (w := (ver g + 1)%N) in *.
  unfold delete_rows. replace (forallb (fun r => r <? CAP) rows) with true by (symmetry; apply forallb_forall; intros p Hp; specialize (H p Hp); lia).
  rewrite get_fill. set (v := as_vector (get_chunk m i)).
  assert (GA : forall j, vec_ok (ver g) d j (get_chunk m j)).
  { intros j. unfold m, GI in *. destruct (mgr g); [apply G|]. unfold get_chunk. rewrite (proj2 (nth_error_None [] j)) by (cbn; lia). cbn. intros. apply G. }
  assert (GV : vec_ok (ver g) d i (Some (Vec v))).
  { unfold v. specialize (GA i). destruct (get_chunk m i) as [[a b|u]|]; cbn [as_vector]; [contradiction|exact GA|]. cbn in *. csplit; auto. intros p Hp. rewrite GA by exact Hp. reflexivity. }
  cbn [vec_ok] in GV. destruct GV as (A & B & C & D). unfold v_delete.
  pose proof (loop_outcome w V rows (deleted v) 0 H) as LO.
  destruct (delete_loop w rows (deleted v) 0) as [e [k|]] eqn:EL; cbn [rbind].
  - eexists. eexists. split; [reflexivity|]. cbn [r_count ver mgr]. csplit; auto.
    + intros p Hp. destruct LO as [L1 _]. specialize (L1 p Hp). specialize (C p (H p Hp)). destruct (d (R i p)); [|reflexivity]. unfold w in *. change NOT_DELETED_ID with 18446744073709551614%N in *. lia.
    + destruct LO as [L1 L2]. unfold GI. cbn [mgr ver]. split; [unfold w; lia|]. intros j. rewrite get_put by apply fill_length. rewrite get_fill. unfold add.
      destruct (j =? i) eqn:E.
      * apply Nat.eqb_eq in E. subst j. cbn [vec_ok same_inserted insert_id deleted any_deleted]. csplit; auto; [|discriminate].
        intros p Hp. rewrite in_vec by exact Hp. rewrite L2. specialize (C p Hp). destruct (d (R i p)) eqn:X; cbn [orb]; destruct (existsb (Nat.eqb p) rows) eqn:Y; try (unfold w; lia).
      * apply Nat.eqb_neq in E. specialize (GA j). apply (vec_mono _ w) in GA; [|unfold w; lia].
        assert (RR : forall p, p < CAP -> (d (R j p) || in_vector i rows (R j p)) = d (R j p)) by (intros p Hp; rewrite in_vec_other by assumption; apply orb_false_r).
        destruct (get_chunk m j) as [[a b|u]|]; cbn [vec_ok] in *; [contradiction| |].
        -- destruct GA as (A1 & B1 & C1 & D1). csplit; auto; intros; rewrite RR by assumption; auto. apply C1. assumption.
        -- intros p Hp. rewrite RR by exact Hp. auto.
    + destruct LO as [L1 _].
      rewrite (loop_count w V rows (deleted v) 0 e k (fun p Hp => conj (H p Hp) (L1 p Hp)) EL). rewrite Nat.add_0_l.
      apply count_ext. intros p Hp. apply in_seq in Hp. destruct (existsb (Nat.eqb p) rows) eqn:X; [|reflexivity]. cbn [andb].
      apply existsb_in in X. specialize (L1 p X). specialize (C p (H p X)). destruct (d (R i p)); unfold w in *; lia.
  - eexists. eexists. split; [reflexivity|]. cbn [r_count ver mgr]. csplit; auto.
    + destruct LO as [(p & P1 & P2 & P3) _]. exists p. split; [exact P1|]. specialize (C p (H p P1)). destruct (d (R i p)); [reflexivity|congruence].
    + destruct LO as [_ L2]. exists (fun r => d r || (in_vector i rows r && negb (N.eqb (e (r mod CAP)) NOT_DELETED_ID))). csplit.
      * unfold GI. cbn [mgr ver]. split; [unfold w; lia|]. intros j. rewrite get_put by apply fill_length. rewrite get_fill.
        destruct (j =? i) eqn:E.
        -- apply Nat.eqb_eq in E. subst j. cbn [vec_ok same_inserted insert_id deleted any_deleted]. csplit; auto; [|discriminate].
           intros p Hp. rewrite in_vec by exact Hp. rewrite rem_R by exact Hp. specialize (C p Hp). specialize (L2 p). destruct (d (R i p)) eqn:X; cbn [orb].
           ++ destruct L2 as [->|(_ & L2 & _)]; [unfold w; lia|]. change NOT_DELETED_ID with 18446744073709551614%N in *. unfold w in *. lia.
           ++ destruct L2 as [L2|(L3 & L4 & L5)].
              ** rewrite L2, C. rewrite N.eqb_refl. cbn [negb]. rewrite andb_false_r. reflexivity.
              ** apply existsb_in in L3. rewrite L3, L5. replace (w =? NOT_DELETED_ID)%N with false by lia. cbn [negb andb]. unfold w. lia.
        -- apply Nat.eqb_neq in E. specialize (GA j). apply (vec_mono _ w) in GA; [|unfold w; lia].
           assert (RR : forall p, p < CAP -> (d (R j p) || (in_vector i rows (R j p) && negb (N.eqb (e (R j p mod CAP)) NOT_DELETED_ID))) = d (R j p)) by (intros p Hp; rewrite in_vec_other by assumption; apply orb_false_r).
           destruct (get_chunk m j) as [[a b|u]|]; cbn [vec_ok] in *; [contradiction| |].
           ++ destruct GA as (A1 & B1 & C1 & D1). csplit; auto; intros; rewrite RR by assumption; auto. apply C1. assumption.
           ++ intros p Hp. rewrite RR by exact Hp. auto.
      * intros r Hr. rewrite Hr. reflexivity.
      * intros r Hr. destruct (d r); [left; reflexivity|right]. cbn [orb] in Hr. apply andb_true_iff in Hr. apply Hr.
Qed.

(** lists of rows *)
Definition glob (i : nat) (buf : list nat) : list nat := map (fun p => R i p) buf.
Lemma in_vec_glob i buf r : (forall p, In p buf -> p < CAP) -> (in_vector i buf r = true <-> In r (glob i buf)).
Proof.
  intros H. unfold glob. rewrite in_map_iff. split.
  - intros E. unfold in_vector in E. apply andb_true_iff in E. destruct E as [E1 E2]. apply Nat.eqb_eq in E1. apply existsb_in in E2. exists (r mod CAP). split; [|exact E2].
    subst i. pose proof CAP_big. rewrite (Nat.div_mod r CAP) at 3 by lia. lia.
  - intros (p & <- & Hp). rewrite in_vec by (apply H, Hp). apply existsb_in. exact Hp.
Qed.
Lemma same_length (l1 l2 : list nat) : NoDup l1 -> NoDup l2 -> (forall x, In x l1 <-> In x l2) -> length l1 = length l2.
Proof. intros. apply Permutation.Permutation_length, Permutation.NoDup_Permutation; assumption. Qed.
Lemma NoDup_app_intro {A} (l1 l2 : list A) : NoDup l1 -> NoDup l2 -> (forall x, In x l1 -> ~ In x l2) -> NoDup (l1 ++ l2).
Proof.
  induction l1 as [|x l1 IH]; intros H1 H2 H; [exact H2|]. inversion H1 as [|? ? N1 N2]; subst. cbn. constructor.
  - rewrite in_app_iff. intros [K|K]; [contradiction|]. apply (H x (or_introl eq_refl) K).
  - apply IH; auto. intros y Hy. apply H. right. exact Hy.
Qed.
Lemma NoDup_app_parts {A} (l1 l2 : list A) : NoDup (l1 ++ l2) -> NoDup l1 /\ NoDup l2 /\ forall x, In x l1 -> ~ In x l2.
Proof.
  induction l1 as [|x l1 IH]; cbn; intros H; [split; [constructor|split; [exact H|intros ? []]]|].
  inversion H as [|? ? N1 N2]; subst. destruct (IH N2) as (A1 & A2 & A3). rewrite in_app_iff in N1. csplit; auto.
  - constructor; auto.
  - intros y [<-|Hy]; auto.
Qed.
Lemma nodup_app_length (l1 l2 : list nat) : (forall x, In x l1 -> ~ In x l2) -> length (nodup Nat.eq_dec (l1 ++ l2)) = length (nodup Nat.eq_dec l1) + length (nodup Nat.eq_dec l2).
Proof.
  intros H. rewrite <- app_length. apply same_length.
  - apply NoDup_nodup.
  - apply NoDup_app_intro; try apply NoDup_nodup. intros x. rewrite !nodup_In. apply H.
  - intros x. rewrite nodup_In, !in_app_iff, !nodup_In. reflexivity.
Qed.
Lemma flush_count i buf : (forall p, In p buf -> p < CAP) -> length (filter (fun p => existsb (Nat.eqb p) buf) (seq 0 CAP)) = length (nodup Nat.eq_dec (glob i buf)).
Proof.
  intros H. rewrite <- (map_length (fun p => R i p)). apply same_length.
  - apply FinFun.Injective_map_NoDup; [intros x y E; lia|]. apply NoDup_filter, seq_NoDup.
  - apply NoDup_nodup.
  - intros x. rewrite nodup_In. unfold glob. rewrite !in_map_iff. split; intros (p & <- & Hp); exists p; (split; [reflexivity|]).
    + apply filter_In in Hp. apply existsb_in, Hp.
    + apply filter_In. split; [apply in_seq; specialize (H p Hp); lia|apply existsb_in, Hp].
Qed.
Lemma mem_in r l : mem r l = true <-> In r l.
Proof. apply existsb_in. Qed.

(** the state of the loop *)
Definition result (g : rgroup) (d : nat -> bool) (n : nat) (all : list nat) (g' : rgroup) (o : option nat) : Prop :=
  r_count g' = r_count g /\
  match o with
  | Some k => (forall r, In r all -> d r = false) /\ (exists d', GI g' d' /\ forall r, d' r = d r || mem r all) /\ k = n + length (nodup Nat.eq_dec all)
  | None => ((exists r, In r all /\ d r = true) \/ ~ NoDup all) /\
            exists d', GI g' d' /\ (forall r, d r = true -> d' r = true) /\ (forall r, d' r = true -> d r = true \/ In r all)
  end.
Lemma GI_ext g d d' : (forall r, d r = d' r) -> GI g d -> GI g d'.
Proof.
  intros E. unfold GI. destruct (mgr g) as [m|]; [|intros H r; rewrite <- E; apply H]. intros [A B]. split; [exact A|]. intros i. specialize (B i).
  destruct (get_chunk m i) as [[a b|v]|]; cbn [vec_ok] in *; [exact B| |].
  - destruct B as (B1 & B2 & B3 & B4). csplit; auto; intros; rewrite <- E; auto. apply B3. assumption.
  - intros p Hp. rewrite <- E. auto.
Qed.

Lemma flush_buf_ok g d i buf n : GI g d -> (ver g + 1 < NOT_DELETED_ID)%N -> (forall p, In p buf -> p < CAP) ->
  exists g' o, flush_buf g (Some i) buf n = Ok (g', o) /\ (ver g' <= ver g + 1)%N /\ result g d n (glob i buf) g' o.
Proof.
  intros G V H. unfold flush_buf. destruct buf as [|p0 buf'] eqn:EB.
  - exists g, (Some n). split; [reflexivity|]. split; [lia|]. split; [reflexivity|]. split; [intros r []|]. split; [|cbn; lia].
    exists d. split; [exact G|]. intros r. cbn. rewrite orb_false_r. reflexivity.
  - rewrite <- EB in *. assert (NE : match buf with _ :: _ => True | [] => False end) by (rewrite EB; exact I). clear EB p0 buf'.
    destruct (flush_ok g d i buf G V H) as (g' & o & E & RC & VE & X). rewrite E. cbn [rbind]. eexists. eexists. split; [reflexivity|]. split; [lia|]. split; [exact RC|].
    destruct o as [k|].
    + destruct X as (X1 & X2 & X3). csplit.
      * intros r Hr. apply in_map_iff in Hr. destruct Hr as (p & <- & Hp). apply X1, Hp.
      * exists (add d i buf). split; [exact X2|]. intros r. unfold add. f_equal. apply eq_iff_eq_true. rewrite in_vec_glob by exact H. rewrite mem_in. reflexivity.
      * rewrite X3, (flush_count i) by exact H. reflexivity.
    + destruct X as ((p & P1 & P2) & d' & D1 & D2 & D3). split.
      * left. exists (R i p). split; [apply in_map_iff; exists p; auto|exact P2].
      * exists d'. csplit; auto. intros r Hr. destruct (D3 r Hr) as [K|K]; [left; exact K|right; apply in_vec_glob; assumption].
Qed.

Lemma result_app g d n a1 g1 k1 d1 a2 g2 o2 :
  (forall r, In r a1 -> d r = false) -> (forall r, d1 r = d r || mem r a1) -> k1 = n + length (nodup Nat.eq_dec a1) -> r_count g1 = r_count g ->
  result g1 d1 k1 a2 g2 o2 -> result g d n (a1 ++ a2) g2 o2.
Proof.
  intros A1 D1 K1 RC (RC2 & X). split; [congruence|]. destruct o2 as [k2|].
  - destruct X as (X1 & (d2 & X2 & X3) & X4).
    assert (DJ : forall r, In r a2 -> d r = false /\ ~ In r a1).
    { intros r Hr. specialize (X1 r Hr). rewrite D1 in X1. apply orb_false_iff in X1. destruct X1 as [Y1 Y2]. split; [exact Y1|]. rewrite <- mem_in. congruence. }
    csplit.
    + intros r Hr. apply in_app_iff in Hr. destruct Hr as [Hr|Hr]; [apply A1, Hr|apply DJ, Hr].
    + exists d2. split; [exact X2|]. intros r. rewrite X3, D1. rewrite <- orb_assoc. f_equal. apply eq_iff_eq_true. rewrite orb_true_iff, !mem_in, in_app_iff. reflexivity.
    + rewrite X4, K1, nodup_app_length; [lia|]. intros x Hx K. apply (DJ x K). exact Hx.
  - destruct X as (X1 & d2 & X2 & X3 & X4). split.
    + destruct X1 as [(r & R1 & R2)|X1].
      * rewrite D1 in R2. apply orb_true_iff in R2. destruct R2 as [R2|R2].
        -- left. exists r. split; [apply in_app_iff; right; exact R1|exact R2].
        -- right. intros K. apply NoDup_app_parts in K. destruct K as (_ & _ & K). apply mem_in in R2. exact (K r R2 R1).
      * right. intros K. apply NoDup_app_parts in K. apply X1, K.
    + exists d2. csplit; auto.
      * intros r Hr. apply X3. rewrite D1, Hr. reflexivity.
      * intros r Hr. destruct (X4 r Hr) as [K|K]; [|right; apply in_app_iff; right; exact K]. rewrite D1 in K. apply orb_true_iff in K.
        destruct K as [K|K]; [left; exact K|right; apply in_app_iff; left; apply mem_in, K].
Qed.
(** failing early: the remaining ids are not looked at *)
Lemma result_fail g d n a1 a2 g' : result g d n a1 g' None -> result g d n (a1 ++ a2) g' None.
Proof.
  intros (RC & X & d' & D1 & D2 & D3). split; [exact RC|]. split.
  - destruct X as [(r & R1 & R2)|X]; [left; exists r; split; [apply in_app_iff; left; exact R1|exact R2]|right]. intros K. apply NoDup_app_parts in K. apply X, K.
  - exists d'. csplit; auto. intros r Hr. destruct (D3 r Hr); [left; assumption|right; apply in_app_iff; left; assumption].
Qed.
Lemma row_parts r : r = R (r / CAP) (r - r / CAP * CAP) /\ r - r / CAP * CAP < CAP.
Proof. split; dlia. Qed.

Lemma loop_sound : forall ids g d i buf n g' o, GI g d -> (ver g + 1 + N.of_nat (length ids) < NOT_DELETED_ID)%N -> (forall p, In p buf -> p < CAP) ->
  del_loop g (Some i) buf n ids = Ok (g', o) -> (ver g' <= ver g + 1 + N.of_nat (length ids))%N /\ result g d n (glob i buf ++ ids) g' o.
Proof.
  induction ids as [|r rs IH]; intros g d i buf n g' o G V H E; cbn [del_loop] in E.
  - destruct (flush_buf_ok g d i buf n G ltac:(cbn [length] in V; lia) H) as (g1 & o1 & E1 & V1 & X). rewrite E1 in E. inversion E; subst. rewrite app_nil_r. split; [cbn [length]; lia|exact X].
  - destruct (negb (r <? r_count g)); [discriminate|]. destruct (row_parts r) as [RP RL]. cbn [length] in V. destruct (i =? r / CAP) eqn:C.
    + destruct (length buf <? CAP) eqn:LB; [|discriminate]. apply Nat.eqb_eq in C.
      apply (IH g d) in E; [|exact G|lia|].
      * destruct E as [E1 E2]. split; [cbn [length]; lia|]. unfold glob in *. rewrite map_app in E2. cbn [map] in E2. rewrite C in E2. rewrite <- RP in E2. rewrite <- app_assoc in E2. rewrite <- C in E2. exact E2.
      * intros p Hp. apply in_app_iff in Hp. destruct Hp as [Hp|[<-|[]]]; [apply H, Hp|exact RL].
    + destruct (flush_buf_ok g d i buf n G ltac:(lia) H) as (g1 & o1 & E1 & V1 & RC & X). rewrite E1 in E. cbn [rbind] in E. destruct o1 as [k|].
      * destruct X as (X1 & (d1 & X2 & X3) & X4). apply (IH g1 d1) in E; [|exact X2|lia|intros p [<-|[]]; exact RL].
        destruct E as [E2 E3]. split; [cbn [length]; lia|]. cbn [glob map] in E3. rewrite <- RP in E3. exact (result_app g d n _ g1 k d1 _ _ _ X1 X3 X4 RC E3).
      * inversion E; subst. split; [cbn [length]; lia|]. apply result_fail. split; assumption.
Qed.
Lemma delete_sound g d ids g' o : GI g d -> (ver g + 1 + N.of_nat (length ids) < NOT_DELETED_ID)%N -> rg_delete g ids = Ok (g', o) ->
  (ver g' <= ver g + N.of_nat (length ids))%N /\ r_count g' = r_count g /\ exists d', GI g' d' /\ effect d ids o d'.
Proof.
  intros G V E. unfold rg_delete in E. destruct ids as [|r rs]; cbn [del_loop] in E.
  - cbn in E. inversion E; subst. csplit; [cbn [length]; lia|reflexivity|]. exists d. split; [exact G|]. cbn. csplit; auto; [|intros r []]. intros r. rewrite orb_false_r. reflexivity.
  - destruct (negb (r <? r_count g)); [discriminate|]. cbn [flush_buf rbind] in E. destruct (row_parts r) as [RP RL].
    apply (loop_sound rs g d) in E; [|exact G|cbn [length] in V; lia|intros p [<-|[]]; exact RL]. destruct E as (E1 & RC & E2). cbn [glob map app] in E2. rewrite <- RP in E2.
    split; [cbn [length]; lia|]. split; [exact RC|]. destruct o as [k|]; cbn [effect].
    + destruct E2 as (X1 & (d' & X2 & X3) & X4). exists d'. csplit; auto.
    + destruct E2 as (X1 & d' & X2 & X3 & X4). exists d'. csplit; auto.
Qed.
Definition ids_total (calls : list (list nat)) : nat := length (concat calls).
Lemma run_sound : forall calls g d g' os, GI g d -> (ver g + 1 + N.of_nat (ids_total calls) < NOT_DELETED_ID)%N -> rg_run g calls = Ok (g', os) ->
  (ver g' < NOT_DELETED_ID)%N /\ exists d', GI g' d' /\ effects d calls os d'.
Proof.
  unfold ids_total. induction calls as [|c cs IH]; intros g d g' os G V E; cbn [rg_run concat] in *.
  - inversion E; subst. split; [lia|]. exists d. split; [exact G|constructor].
  - rewrite app_length in V. destruct (rg_delete g c) as [[g1 o]|] eqn:E1; [|discriminate]. cbn [rbind] in E.
    destruct (rg_run g1 cs) as [[g2 os']|] eqn:E2; [|discriminate]. cbn [rbind] in E. inversion E; subst.
    destruct (delete_sound g d c g1 o G ltac:(lia) E1) as (V1 & RC & d1 & G1 & EF). destruct (IH g1 d1 g' os' G1 ltac:(lia) E2) as (V2 & d2 & G2 & EFS).
    split; [exact V2|]. exists d2. split; [exact G2|]. econstructor; eassumption.
Qed.
Lemma deletes n calls g os : (1 + N.of_nat (ids_total calls) < NOT_DELETED_ID)%N -> rg_run (fresh n) calls = Ok (g, os) ->
  exists d, effects (fun _ => false) calls os d /\ forall i k, k <= CAP -> rg_select g i k = filter (fun p => negb (d (i * CAP + p))) (seq 0 k).
Proof.
  intros V E. destruct (run_sound calls (fresh n) (fun _ => false) g os) as (V1 & d & G & EF); [intros r; reflexivity|cbn [fresh ver]; lia|exact E|].
  exists d. split; [exact EF|]. intros i k H. apply select_sound; assumption.
Qed.

(** no errors on lists without repetition *)
Lemma loop_total : forall ids g d i buf n, GI g d -> (ver g + 1 + N.of_nat (length ids) < NOT_DELETED_ID)%N -> (forall p, In p buf -> p < CAP) -> Forall (fun r => r < r_count g) ids ->
  NoDup (glob i buf ++ ids) -> exists g' o, del_loop g (Some i) buf n ids = Ok (g', o).
Proof.
  induction ids as [|r rs IH]; intros g d i buf n G V H F ND; cbn [del_loop].
  - destruct (flush_buf_ok g d i buf n G ltac:(cbn [length] in V; lia) H) as (g1 & o1 & E1 & _). eauto.
  - inversion F as [|? ? F1 F2]; subst. replace (r <? r_count g) with true by lia. cbn [negb]. destruct (row_parts r) as [RP RL]. cbn [length] in V. destruct (i =? r / CAP) eqn:C.
    + apply Nat.eqb_eq in C.
      assert (H' : forall p, In p (buf ++ [r - r / CAP * CAP]) -> p < CAP).
      { intros p Hp. apply in_app_iff in Hp. destruct Hp as [Hp|[<-|[]]]; [apply H, Hp|exact RL]. }
      assert (ND' : NoDup (glob i (buf ++ [r - r / CAP * CAP]) ++ rs)).
      { unfold glob in *. rewrite map_app. cbn [map]. replace (R i (r - r / CAP * CAP)) with r by (rewrite C; exact RP). rewrite <- app_assoc. exact ND. }
      assert (LB : length (buf ++ [r - r / CAP * CAP]) <= CAP).
      { rewrite <- (seq_length CAP 0). apply NoDup_incl_length.
        - apply NoDup_app_parts in ND'. destruct ND' as [ND' _]. apply NoDup_map_inv in ND'. exact ND'.
        - intros p Hp. apply in_seq. specialize (H' p Hp). lia. }
      rewrite app_length in LB. cbn [length] in LB. replace (length buf <? CAP) with true by lia. apply (IH g d); auto. lia.
    + destruct (flush_buf_ok g d i buf n G ltac:(lia) H) as (g1 & o1 & E1 & V1 & RC & X). rewrite E1. cbn [rbind]. destruct o1 as [k|]; [|eauto].
      destruct X as (X1 & (d1 & X2 & X3) & X4). apply (IH g1 d1); [exact X2|lia|intros p [<-|[]]; exact RL|rewrite RC; exact F2|].
      cbn [glob map app]. rewrite <- RP. apply NoDup_app_parts in ND. apply ND.
Qed.
Lemma delete_live g d ids : GI g d -> (ver g + 1 + N.of_nat (length ids) < NOT_DELETED_ID)%N -> Forall (fun r => r < r_count g) ids -> NoDup ids ->
  (forall r, In r ids -> d r = false) -> exists g', rg_delete g ids = Ok (g', Some (length ids)) /\ exists d', GI g' d' /\ forall r, d' r = d r || mem r ids.
Proof.
  intros G V F ND L. assert (E : exists g' o, rg_delete g ids = Ok (g', o)).
  { unfold rg_delete. destruct ids as [|r rs]; cbn [del_loop]; [cbn; eauto|]. inversion F as [|? ? F1 F2]; subst. replace (r <? r_count g) with true by lia. cbn [negb flush_buf rbind].
    destruct (row_parts r) as [RP RL]. apply (loop_total rs g d); [exact G|cbn [length] in V; lia|intros p [<-|[]]; exact RL|exact F2|]. cbn [glob map app]. rewrite <- RP. exact ND. }
  destruct E as (g' & o & E). destruct (delete_sound g d ids g' o G V E) as (_ & _ & d' & G' & EF). exists g'. destruct o as [k|]; cbn [effect] in EF.
  - destruct EF as (E1 & E2 & E3). rewrite nodup_fixed_point in E3 by exact ND. subst k. split; [exact E|]. exists d'. auto.
  - destruct EF as (_ & _ & [(r & R1 & R2)|K]); [rewrite L in R2 by exact R1; discriminate|contradiction].
Qed.
(** the same from the beginning: [calls] went through, and now rows that are all still there are deleted *)
Lemma delete_live_run n calls g os ids : (1 + N.of_nat (ids_total calls + length ids) < NOT_DELETED_ID)%N -> rg_run (fresh n) calls = Ok (g, os) ->
  Forall (fun r => r < n) ids -> NoDup ids -> (forall r, In r ids -> ~ In r (concat calls)) ->
  exists g', rg_delete g ids = Ok (g', Some (length ids)).
Proof.
  intros V E F ND L.
  assert (S : forall calls g d g' os, GI g d -> (ver g + 1 + N.of_nat (ids_total calls) < NOT_DELETED_ID)%N -> rg_run g calls = Ok (g', os) ->
     r_count g' = r_count g /\ (ver g' <= ver g + N.of_nat (ids_total calls))%N /\ exists d', GI g' d' /\ forall r, d' r = true -> d r = true \/ In r (concat calls)).
  { clear. unfold ids_total. induction calls as [|c cs IH]; intros g d g' os G V E; cbn [rg_run concat] in *.
    - inversion E; subst. csplit; [reflexivity|cbn [length concat]; lia|]. exists d. auto.
    - rewrite app_length in *. destruct (rg_delete g c) as [[g1 o]|] eqn:E1; [|discriminate]. cbn [rbind] in E.
      destruct (rg_run g1 cs) as [[g2 os']|] eqn:E2; [|discriminate]. cbn [rbind] in E. inversion E; subst.
      destruct (delete_sound g d c g1 o G ltac:(lia) E1) as (V1 & RC & d1 & G1 & EF). destruct (IH g1 d1 g' os' G1 ltac:(lia) E2) as (RC2 & V2 & d2 & G2 & S2).
      csplit; [congruence|lia|]. exists d2. split; [exact G2|]. intros r Hr. destruct (S2 r Hr) as [K|K]; [|right; apply in_app_iff; right; exact K].
      destruct o as [k|]; cbn [effect] in EF.
      + destruct EF as (EF & _). rewrite EF in K. apply orb_true_iff in K. destruct K as [K|K]; [left; exact K|right; apply in_app_iff; left; apply mem_in, K].
      + destruct EF as (_ & EF & _). destruct (EF r K) as [K'|K']; [left; exact K'|right; apply in_app_iff; left; exact K']. }
  destruct (S calls (fresh n) (fun _ => false) g os) as (RC & V1 & d & G & D); [intros r; reflexivity|cbn [fresh ver]; lia|exact E|].
  destruct (delete_live g d ids G) as (g' & E' & _).
  - cbn [fresh ver] in V1. lia.
  - rewrite RC. exact F.
  - exact ND.
  - intros r Hr. destruct (d r) eqn:X; [|reflexivity]. destruct (D r X) as [K|K]; [discriminate|]. destruct (L r Hr K).
  - exists g'. exact E'.
Qed.
